(** Names of symbolic variables: the weak name tables, the counters of generated names and pySMT's symbol table.
    hwtypes/smt_bit_vector.py:24-33, 64-95 (SMTBit), 228-256 (SMTBitVector), hwtypes/smt_int.py:27-48,
    hwtypes/smt_fp_vector.py:38-65. Definitions only. *)
From Coq Require Import String Ascii DecimalString.
From Coq Require Export List Arith Bool.
Export ListNotations.
Open Scope string_scope.
Open Scope list_scope.

(** The decimal digits of f'{n}'. *)
Definition dec (n : nat) : string := NilZero.string_of_uint (Nat.to_uint n).
(** f'{prefix}_{n}', smt_bit_vector.py:28. *)
Definition gen (txt : string) (n : nat) : string := (txt ++ "_" ++ dec n)%string.

(** A prefix argument: nothing checks that it is a string. Any other hashable value has a key in _var_counters (values
    that compare equal share it) and a text. *)
Inductive prefix := PStr (s : string) | PObj (key : nat) (txt : string).
Definition ptext (p : prefix) : string := match p with PStr s => s | PObj _ t => t end.
Definition same_key (p q : prefix) : bool :=
  match p, q with
  | PStr s, PStr t => String.eqb s t
  | PObj i _, PObj j _ => Nat.eqb i j
  | _, _ => false
  end.

Inductive err := TypeErr | ValueErr.
Inductive sort := SBool | SInt | SVec (n : nat).
Definition sort_eqb (a b : sort) : bool :=
  match a, b with SBool, SBool | SInt, SInt => true | SVec n, SVec m => Nat.eqb n m | _, _ => false end.
(** Which name table a class uses: SMTBit, SMTBitVector and SMTInt share one, SMTFPVector has its own. *)
Inductive family := Core | FP.
Definition fam_eqb (a b : family) : bool := match a, b with Core, Core | FP, FP => true | _, _ => false end.

(** A Python object of a symbolic class: identity, the name it is registered under, its table, whether its constructor
    finished, the names of the symbols in its formula. *)
Record obj := Obj { o_id : nat; o_name : option string; o_fam : family; o_ok : bool; o_syms : list string }.

(** heap: the objects not yet collected. tab: the two WeakValueDictionaries; an entry whose object is gone counts as
    absent. counters: _var_counters. symtab: the symbols pySMT has created, which it never forgets. fresh: its counter
    for FreshSymbol. created: every name given to a variable so far, generated ones with their prefix (a record of the
    history; the code does not read it). *)
Record state := St {
  heap : list obj; tab : list (family * string * nat); counters : list (prefix * nat);
  symtab : list (string * sort); fresh : nat; next : nat; created : list (option prefix * string) }.
Definition init : state := St [] [] [] [] 0 0 [].

Fixpoint find_tab (l : list (family * string * nat)) (f : family) (n : string) : option nat :=
  match l with
  | [] => None
  | (g, m, i) :: l => if fam_eqb f g && String.eqb n m then Some i else find_tab l f n
  end.
Definition live (s : state) (i : nat) : bool := existsb (fun o => Nat.eqb (o_id o) i) (heap s).
(** name in _name_table. *)
Definition in_table (s : state) (f : family) (n : string) : bool :=
  match find_tab (tab s) f n with Some i => live s i | None => false end.
Fixpoint counter (l : list (prefix * nat)) (p : prefix) : nat :=
  match l with [] => 0 | (q, n) :: l => if same_key p q then n else counter l p end.
Fixpoint find_sym (l : list (string * sort)) (n : string) : option sort :=
  match l with [] => None | (m, t) :: l => if String.eqb n m then Some t else find_sym l n end.

(** _gen_name, smt_bit_vector.py:27-31: the first free name at or after the counter. The table has at most as many
    names in use as there are live objects, so that many repetitions of the loop suffice (NameFacts.search_some). *)
Fixpoint search (used : string -> bool) (txt : string) (fuel k : nat) : option nat :=
  match fuel with
  | 0 => None
  | S fuel => if used (gen txt k) then search used txt fuel (S k) else Some k
  end.
Definition gen_name (s : state) (p : prefix) : option (nat * string) :=
  match search (in_table s Core) (ptext p) (S (List.length (heap s))) (counter (counters s) p) with
  | Some k => Some (S k, gen (ptext p) k)
  | None => None
  end.

(** pySMT new_fresh_symbol: the first FV<k> not among its symbols. *)
Definition fresh_name (k : nat) : string := ("FV" ++ dec k)%string.
Definition search_fresh (s : state) : option nat :=
  (fix go fuel k := match fuel with
   | 0 => None
   | S fuel => match find_sym (symtab s) (fresh_name k) with Some _ => go fuel (S k) | None => Some k end
   end) (S (List.length (symtab s))) (fresh s).

(** _name_table[name] = self, then smt.Symbol(name, T): pySMT raises PysmtTypeError, a TypeError, when the symbol exists
    with another type. A constructor that raises leaves its object registered until it is collected. *)
Inductive out := Created (i : nat) (name : string) | Failed (e : err) | Done.
Definition register (s : state) (f : family) (n : string) (t : sort) : state * out :=
  let i := next s in
  let clash := match find_sym (symtab s) n with Some u => negb (sort_eqb t u) | None => false end in
  let o := Obj i (Some n) f (negb clash) (if clash then [] else [n]) in
  (St (heap s ++ [o]) ((f, n, i) :: tab s) (counters s)
     (match find_sym (symtab s) n with Some _ => symtab s | None => (n, t) :: symtab s end)
     (fresh s) (S i) (created s),
   if clash then Failed TypeErr else Created i n).
Definition note (s : state) (p : option prefix) (n : string) : state :=
  St (heap s) (tab s) (counters s) (symtab s) (fresh s) (next s) ((p, n) :: created s).
Definition set_counter (s : state) (p : prefix) (k : nat) : state :=
  St (heap s) (tab s) ((p, k) :: counters s) (symtab s) (fresh s) (next s) (created s).

(** The name= and prefix= arguments. *)
Inductive narg := NAuto | NStr (n : string) | NNotStr.
(** The first lines of the three constructors, smt_bit_vector.py:64-85 and 228-252, smt_int.py:28-48; value: a value
    argument was passed. Warnings are not modelled. *)
Definition new_var (s : state) (nm : narg) (pf : option prefix) (value : bool) (t : sort) : state * out :=
  match nm, pf, value with
  | NAuto, None, true => (s, Done)                                   (* not a variable *)
  | _, _, true => (s, Failed TypeErr)
  | NStr _, Some _, _ | NNotStr, Some _, _ => (s, Failed ValueErr)
  | NNotStr, None, _ => (s, Failed TypeErr)
  | NStr n, None, _ =>
      if in_table s Core n then (s, Failed ValueErr) else register (note s None n) Core n t
  | NAuto, _, _ =>
      let p := match pf with Some p => p | None => PStr "V" end in
      match gen_name s p with
      | Some (k, n) => register (note (set_counter s p k) (Some p) n) Core n t
      | None => (s, Done)                                            (* never: NameFacts.gen_name_some *)
      end
  end.
(** SMTFPVector(name=...), smt_fp_vector.py:43-65. *)
Definition new_fp (s : state) (nm : narg) (t : sort) : state * out :=
  match nm with
  | NNotStr => (s, Failed TypeErr)
  | NStr n => if in_table s FP n then (s, Failed ValueErr) else register (note s None n) FP n t
  | NAuto =>
      match search_fresh s with
      | Some k =>
          let n := fresh_name k in
          (St (heap s ++ [Obj (next s) None FP true [n]]) (tab s) (counters s) ((n, t) :: symtab s) (S k) (S (next s))
              ((None, n) :: created s), Created (next s) n)
      | None => (s, Done)
      end
  end.

(** Anything that builds a value from others: the new object's symbols are symbols of its operands (keep: what is left
    after simplification). Objects that raised in their constructor cannot be operands. *)
Definition syms_of (s : state) (is : list nat) : list string :=
  flat_map o_syms (filter (fun o => existsb (Nat.eqb (o_id o)) is) (heap s)).
Definition new_expr (s : state) (is : list nat) (keep : string -> bool) : state * out :=
  (St (heap s ++ [Obj (next s) None Core true (filter keep (syms_of s is))]) (tab s) (counters s) (symtab s) (fresh s)
      (S (next s)) (created s), Done).
(** The garbage collector takes object i, at any moment. *)
Definition collect (s : state) (i : nat) : state :=
  St (filter (fun o => negb (Nat.eqb (o_id o) i)) (heap s)) (tab s) (counters s) (symtab s) (fresh s) (next s) (created s).

Inductive op :=
| OVar (nm : narg) (pf : option prefix) (value : bool) (t : sort)
| OFP (nm : narg) (t : sort)
| OExpr (is : list nat) (keep : string -> bool)
| OCollect (i : nat).
Definition step (s : state) (o : op) : state * out :=
  match o with
  | OVar nm pf v t => new_var s nm pf v t
  | OFP nm t => new_fp s nm t
  | OExpr is keep => new_expr s is keep
  | OCollect i => (collect s i, Done)
  end.
Fixpoint run (s : state) (l : list op) : state :=
  match l with [] => s | o :: l => run (fst (step s o)) l end.
