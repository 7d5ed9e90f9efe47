(** The programs with item assignment that mean the same in all families: those of ProgSpec.v that do not assign to the
    dividend or the result of a remainder. *)
From Verif Require Import PyBase BVModel OpModel SMTTerm SMTModel SMTSpec Z3Spec ProgModel ProgSpec MProgModel.

(** The variable divided by %, bvurem. *)
Definition dividend (i : instr) : option nat :=
  match i with PMeth MUrem x _ | POp OMod x _ => Some x | _ => None end.
Record mtypes := MT {
  m_objs : list ty;      (* the types of the objects *)
  m_vars : list nat;     (* the object of each variable *)
  m_fixed : list nat     (* objects that may not be assigned to any more *)
}.
Definition var_types (t : mtypes) : list ty := holds (m_objs t, m_vars t).
Definition mcheck1 (t : mtypes) (m : minstr) : option mtypes :=
  match m with
  | MCall i =>
      us <-! check1 (var_types t) i ;;
      let n := length (m_objs t) in
      Some (MT (m_objs t ++ us) (m_vars t ++ seq n (length us))
               (match dividend i with
                | Some x => match nth_error (m_vars t) x with Some o => o :: n :: m_fixed t | None => m_fixed t end
                | None => m_fixed t
                end))
  | MAlias x => o <-! nth_error (m_vars t) x ;; Some (MT (m_objs t) (m_vars t ++ [o]) (m_fixed t))
  | MSet x i b =>
      o <-! nth_error (m_vars t) x ;; c <-! tvec (var_types t) x ;;
      guard (negb (existsb (Nat.eqb o) (m_fixed t)) && ((- csize c <=? i) && (i <? csize c)) && bit_like (var_types t) b) t
  end.
Fixpoint mcheck (t : mtypes) (p : list minstr) : option mtypes :=
  match p with [] => Some t | m :: p => t' <-! mcheck1 t m ;; mcheck t' p end.
(** Inputs of the given types, all different objects. *)
Definition minputs (ts : list ty) : mtypes := MT ts (seq 0 (length ts)) [].
