(** Model of hwtypes/smt_fp_vector.py (SMTFPVector) and of the part of hwtypes/fp_vector_abc.py that computes the binding
    of a class. Definitions only. The operations are uninterpreted functions over bit-vector sorts; the first part
    models the pySMT nodes involved (trusted interface, as in SMTModel.v: creating a node checks sorts and raises
    PysmtTypeError, a TypeError; infix notation is enabled). Names of variables are in NameModel.v. *)
From Verif Require Import PyBase BVModel FPModel.
From Verif Require NameModel.
Open Scope string_scope.
Open Scope Z_scope.

(** ** pySMT *)

(** BOOL and BVType(n); a function type has parameters and a result, a variable no parameters. *)
Inductive fsort := FBool | FBV (n : Z).
Definition fsort_eqb (a b : fsort) : bool :=
  match a, b with FBool, FBool => true | FBV n, FBV m => n =? m | _, _ => false end.
Definition fty : Type := list fsort * fsort.
Fixpoint fsorts_eqb (a b : list fsort) : bool :=
  match a, b with
  | [], [] => true
  | x :: a, y :: b => fsort_eqb x y && fsorts_eqb a b
  | _, _ => false
  end.
Definition fty_eqb (a b : fty) : bool := fsorts_eqb (fst a) (fst b) && fsort_eqb (snd a) (snd b).
Definition fsym : Type := string * fty.

(** FNodes. *)
Inductive fterm :=
| TVar (name : string) (s : fsort)
| TConst (z n : Z)
| TNot (t : fterm)
| TApp (f : fsym) (args : list fterm).

(** get_type(); None: the type checker rejects the node. *)
Fixpoint sorts_match (ps : list fsort) (ss : list (option fsort)) : bool :=
  match ps, ss with
  | [], [] => true
  | p :: ps, Some s :: ss => fsort_eqb p s && sorts_match ps ss
  | _, _ => false
  end.
Fixpoint sort_of (t : fterm) : option fsort :=
  match t with
  | TVar _ s => Some s
  | TConst z n => if (0 <=? z) && (z <? 2 ^ n) then Some (FBV n) else None
  | TNot t => match sort_of t with Some FBool => Some FBool | _ => None end
  | TApp f args => if sorts_match (fst (snd f)) (map sort_of args) then Some (snd (snd f)) else None
  end.

(** f(args): FNode.__call__ raises PysmtValueError (a ValueError) on a wrong number of arguments. *)
Definition fcall (f : fsym) (args : list fterm) : res fterm :=
  if negb (Nat.eqb (length args) (length (fst (snd f)))) then Raise EValueError
  else match sort_of (TApp f args) with Some _ => Ok (TApp f args) | None => Raise ETypeError end.

(** shortcuts.Symbol(name, type): a symbol keeps its type for ever; PysmtTypeError if asked for another. *)
Fixpoint find_symbol (l : list fsym) (n : string) : option fty :=
  match l with [] => None | (m, t) :: l => if String.eqb m n then Some t else find_symbol l n end.
Definition Symbol (l : list fsym) (n : string) (t : fty) : list fsym * res fsym :=
  match find_symbol l n with
  | Some u => (l, if fty_eqb t u then Ok (n, t) else Raise ETypeError)
  | None => ((n, t) :: l, Ok (n, t))
  end.

(** ** Classes *)

(** A class of the family: identity, __name__, binding, the identities of the classes it is a subclass of (itself
    included). *)
Record fcls := FC { fc_id : nat; fc_name : string; fc_fmt : fmt; fc_anc : list nat }.
Definition fc_size (c : fcls) : Z := f_size (fc_fmt c).

(** AbstractFPVectorMeta.__new__, fp_vector_abc.py:21-32: info is the binding given by class indexing, bs the bindings
    of the bases. *)
Fixpoint new_binding (info : option fmt) (bs : list (option fmt)) : res (option fmt) :=
  match bs with
  | [] => Ok info
  | None :: bs => new_binding info bs
  | Some f :: bs =>
      match info with
      | None => new_binding (Some f) bs
      | Some g => if fmt_eqb g f then new_binding info bs else Raise ETypeError
      end
  end.

(** _SIGS, smt_fp_vector.py:11-36: None stands for the sort of the class. *)
Definition sigs : list (string * list (option fsort)) :=
  [("fp_abs", [None; None]);
   ("fp_neg", [None; None]);
   ("fp_add", [None; None; None]);
   ("fp_sub", [None; None; None]);
   ("fp_mul", [None; None; None]);
   ("fp_div", [None; None; None]);
   ("fp_fma", [None; None; None; None]);
   ("fp_sqrt", [None; None]);
   ("fp_rem", [None; None; None]);
   ("fp_round_to_integral", [None; None]);
   ("fp_min", [None; None]);
   ("fp_max", [None; None]);
   ("fp_leq", [None; None; Some FBool]);
   ("fp_lt", [None; None; Some FBool]);
   ("fp_geq", [None; None; Some FBool]);
   ("fp_gt", [None; None; Some FBool]);
   ("fp_eq", [None; None; Some FBool]);
   ("fp_is_normal", [None; Some FBool]);
   ("fp_is_subnormal", [None; Some FBool]);
   ("fp_is_zero", [None; Some FBool]);
   ("fp_is_infinite", [None; Some FBool]);
   ("fp_is_NaN", [None; Some FBool]);
   ("fp_is_negative", [None; Some FBool]);
   ("fp_is_positive", [None; Some FBool])].

(** args[:-1] and args[-1], smt_fp_vector.py:81-83. *)
Definition sig_type (size : Z) (l : list (option fsort)) : fty :=
  let l := map (fun o => match o with None => FBV size | Some s => s end) l in
  (removelast l, last l FBool).

(** '.'.join((cls.__name__, method_name)), smt_fp_vector.py:84. *)
Definition uf_name (cls m : string) : string := cls ++ "." ++ m.

(** The state: pySMT's symbols, the classes that exist, _uf_table with the entries for method names, and the
    dictionary under 'to_ubv' (the one under 'to_sbv' is never read). *)
Record fstate := FS {
  fs_syms : list fsym;
  fs_cls : list fcls;
  fs_ufs : list (nat * list (string * fsym));
  fs_ubv : list (nat * Z * fsym);
  fs_next : nat }.
Definition fs_init : fstate := FS [] [] [] [] 0.

(** The loop of __init_subclass__, smt_fp_vector.py:80-85. *)
Fixpoint make_ufs (syms : list fsym) (name : string) (size : Z) (l : list (string * list (option fsort)))
  : list fsym * res (list (string * fsym)) :=
  match l with
  | [] => (syms, Ok [])
  | (m, sg) :: l =>
      let '(syms, r) := Symbol syms (uf_name name m) (sig_type size sg) in
      match r with
      | Raise e => (syms, Raise e)
      | Ok f =>
          let '(syms, r) := make_ufs syms name size l in
          (syms, rmap (cons (m, f)) r)
      end
  end.

Fixpoint find_cls (l : list fcls) (i : nat) : option fcls :=
  match l with [] => None | c :: l => if Nat.eqb (fc_id c) i then Some c else find_cls l i end.

(** Creating a subclass of SMTFPVector (and of the classes bases), by a class statement (info = None) or by class
    indexing (info = Some binding), with __init_subclass__, smt_fp_vector.py:77-88. An unbound class has no size. *)
Definition new_class (st : fstate) (name : string) (info : option fmt) (bases : list nat) : fstate * res nat :=
  let bs := flat_map (fun i => match find_cls (fs_cls st) i with Some c => [c] | None => [] end) bases in
  match new_binding info (map (fun c => Some (fc_fmt c)) bs) with
  | Raise e => (st, Raise e)
  | Ok None => (st, Raise EAttributeError)
  | Ok (Some f) =>
      let '(syms, r) := make_ufs (fs_syms st) name (f_size f) sigs in
      match r with
      | Raise e => (FS syms (fs_cls st) (fs_ufs st) (fs_ubv st) (fs_next st), Raise e)
      | Ok ufs =>
          let i := fs_next st in
          (FS syms (FC i name f (i :: flat_map fc_anc bs) :: fs_cls st) ((i, ufs) :: fs_ufs st)
              (fs_ubv st) (S i), Ok i)
      end
  end.

(** The name of K[eb, mb, mode, ieee], fp_vector_abc.py:67. *)
Definition mode_name (r : rmode) : string :=
  match r with
  | RNE => "RoundingMode.RNE" | RNA => "RoundingMode.RNA" | RTP => "RoundingMode.RTP"
  | RTN => "RoundingMode.RTN" | RTZ => "RoundingMode.RTZ"
  end.
Definition bound_name (k : string) (f : fmt) : string :=
  k ++ "[" ++ NameModel.dec (Z.to_nat (f_eb f)) ++ "," ++ NameModel.dec (Z.to_nat (f_mb f)) ++ ","
    ++ mode_name (f_mode f) ++ "," ++ (if f_ieee f then "True" else "False") ++ "]".

(** ** Instances *)

Record sfp := SFP { sf_cls : fcls; sf_term : fterm }.

(** Arguments: an SMTFPVector, an object with another kind of _value (SMTBitVector, SMTBit), or one without _value. *)
Inductive farg := FAFp (x : sfp) | FAVal (t : fterm) | FAOther.
Definition arg_value (a : farg) : res fterm :=
  match a with FAFp x => Ok (sf_term x) | FAVal t => Ok t | FAOther => Raise EAttributeError end.

(** cls(value), smt_fp_vector.py:53-75, without a name. *)
Inductive fval := FVNode (t : fterm) | FVFp (x : sfp) | FVInt (z : Z) | FVOther.
Definition sfp_init (c : fcls) (v : fval) : res sfp :=
  match v with
  | FVNode t =>
      match sort_of t with
      | Some (FBV n) => if n =? fc_size c then Ok (SFP c t) else Raise ETypeError
      | _ => Raise ETypeError
      end
  | FVFp x =>
      if existsb (Nat.eqb (fc_id c)) (fc_anc (sf_cls x)) then Ok (SFP c (sf_term x)) else Raise ETypeError
  | FVInt z =>
      if (0 <=? z) && (z <? 2 ^ fc_size c) then Ok (SFP c (TConst z (fc_size c))) else Raise EValueError
  | FVOther => Raise ETypeError
  end.

Section Simp.
(** smt.simplify, applied by the constructors of SMTBit and SMTBitVector. *)
Variable simp : fterm -> fterm.

(** SMTBit(node), SMTBitVector[n](node): smt_bit_vector.py:86-90, 107; 254-259, 292. *)
Definition smt_bit (t : fterm) : res fterm :=
  match sort_of t with Some FBool => Ok (simp t) | _ => Raise ETypeError end.
Definition smt_vec (n : Z) (t : fterm) : res fterm :=
  match sort_of t with Some (FBV m) => if m =? n then Ok (simp t) else Raise ETypeError | _ => Raise ETypeError end.

(** _uf_table[cls][method_name]. *)
Fixpoint assoc_nat {A} (l : list (nat * A)) (i : nat) : option A :=
  match l with [] => None | (j, a) :: l => if Nat.eqb j i then Some a else assoc_nat l i end.
Fixpoint assoc_str {A} (l : list (string * A)) (i : string) : option A :=
  match l with [] => None | (j, a) :: l => if String.eqb j i then Some a else assoc_str l i end.
Definition find_uf (st : fstate) (c : fcls) (m : string) : res fsym :=
  match assoc_nat (fs_ufs st) (fc_id c) with
  | Some l => match assoc_str l m with Some f => Ok f | None => Raise EKeyError end
  | None => Raise EKeyError
  end.

(** Results of the methods. *)
Inductive fres := RFp (x : sfp) | RBit (t : fterm) | RVec (n : Z) (t : fterm).

(** _fp_method and _bit_method, smt_fp_vector.py:90-98. *)
Definition fp_method (st : fstate) (c : fcls) (m : string) (args : list fterm) : res fres :=
  f <- find_uf st c m ;; t <- fcall f args ;; rmap RFp (sfp_init c (FVNode t)).
Definition bit_method (st : fstate) (c : fcls) (m : string) (args : list fterm) : res fres :=
  f <- find_uf st c m ;; t <- fcall f args ;; rmap RBit (smt_bit t).

(** The methods at smt_fp_vector.py:100-172: name, number of arguments after self, and which of the two they call. *)
Definition methods : list (string * (nat * bool)) :=
  [("fp_abs", (0%nat, false)); ("fp_neg", (0%nat, false)); ("fp_add", (1%nat, false)); ("fp_sub", (1%nat, false));
   ("fp_mul", (1%nat, false)); ("fp_div", (1%nat, false)); ("fp_fma", (2%nat, false)); ("fp_sqrt", (0%nat, false));
   ("fp_rem", (1%nat, false)); ("fp_round_to_integral", (0%nat, false)); ("fp_min", (1%nat, false));
   ("fp_max", (1%nat, false)); ("fp_leq", (1%nat, true)); ("fp_lt", (1%nat, true)); ("fp_geq", (1%nat, true));
   ("fp_gt", (1%nat, true)); ("fp_eq", (1%nat, true)); ("fp_is_normal", (0%nat, true));
   ("fp_is_subnormal", (0%nat, true)); ("fp_is_zero", (0%nat, true)); ("fp_is_infinite", (0%nat, true));
   ("fp_is_NaN", (0%nat, true)); ("fp_is_negative", (0%nat, true)); ("fp_is_positive", (0%nat, true))].

(** x.m(args). *)
Definition call_method (st : fstate) (m : string) (x : sfp) (args : list farg) : res fres :=
  match assoc_str methods m with
  | None => Raise EAttributeError
  | Some (k, bit) =>
      if negb (Nat.eqb (length args) k) then Raise ETypeError
      else
        vs <- mapM arg_value args ;;
        if bit then bit_method st (sf_cls x) m (sf_term x :: vs) else fp_method st (sf_cls x) m (sf_term x :: vs)
  end.

(** The operators, smt_fp_vector.py:204-217; != is the negation of ==. *)
Definition operators : list (string * string) :=
  [("__neg__", "fp_neg"); ("__abs__", "fp_abs"); ("__add__", "fp_add"); ("__sub__", "fp_sub"); ("__mul__", "fp_mul");
   ("__truediv__", "fp_div"); ("__mod__", "fp_rem"); ("__eq__", "fp_eq"); ("__ge__", "fp_geq"); ("__gt__", "fp_gt");
   ("__le__", "fp_leq"); ("__lt__", "fp_lt")].
Definition call_operator (st : fstate) (o : string) (x : sfp) (args : list farg) : res fres :=
  match assoc_str operators o with
  | Some m => call_method st m x args
  | None => Raise EAttributeError
  end.
Definition call_ne (st : fstate) (x : sfp) (a : farg) : res fres :=
  r <- call_method st "fp_eq" x [a] ;;
  match r with RBit t => rmap RBit (smt_bit (TNot t)) | _ => Raise EOutOfModel end.

(** to_ubv and to_sbv, smt_fp_vector.py:174-198; sizes below 1 are not modelled. *)
Fixpoint assoc_size (l : list (nat * Z * fsym)) (i : nat) (n : Z) : option fsym :=
  match l with [] => None | (j, m, f) :: l => if Nat.eqb j i && (m =? n) then Some f else assoc_size l i n end.
Definition to_ubv (st : fstate) (x : sfp) (size : Z) : fstate * res fres :=
  let c := sf_cls x in
  let finish f := t <- fcall f [sf_term x] ;; rmap (RVec size) (smt_vec size t) in
  if size <? 1 then (st, Raise EOutOfModel) else
  match assoc_size (fs_ubv st) (fc_id c) size with
  | Some f => (st, finish f)
  | None =>
      let name := fc_name c ++ "." ++ "to_ubv[" ++ NameModel.dec (Z.to_nat size) ++ "]" in
      let '(syms, r) := Symbol (fs_syms st) name ([FBV (fc_size c)], FBV size) in
      match r with
      | Raise e => (FS syms (fs_cls st) (fs_ufs st) (fs_ubv st) (fs_next st), Raise e)
      | Ok f => (FS syms (fs_cls st) (fs_ufs st) ((fc_id c, size, f) :: fs_ubv st) (fs_next st), finish f)
      end
  end.
(** _uf_table[cls]['to_usbv'] at smt_fp_vector.py:189 is looked up among the method names. *)
Definition to_sbv (st : fstate) (x : sfp) (size : Z) : fstate * res fres :=
  (st, _ <- find_uf st (sf_cls x) "to_usbv" ;; Raise EOutOfModel).

(** reinterpret_as_bv and reinterpret_from_bv, smt_fp_vector.py:200-205. *)
Definition as_bv (x : sfp) : res fres :=
  let n := fc_size (sf_cls x) in rmap (RVec n) (smt_vec n (sf_term x)).
Definition from_bv (c : fcls) (a : farg) : res sfp :=
  t <- arg_value a ;; sfp_init c (FVNode t).

(** Histories: classes are created and collected (_uf_table is a WeakKeyDictionary; pySMT forgets no symbol), variables
    of any sort are named, to_ubv is called. *)
Inductive fop :=
| OpClass (name : string) (info : option fmt) (bases : list nat)
| OpCollect (i : nat)
| OpVar (name : string) (s : fsort)
| OpUbv (i : nat) (t : fterm) (size : Z).
Definition fstep (st : fstate) (o : fop) : fstate :=
  match o with
  | OpClass name info bases => fst (new_class st name info bases)
  | OpCollect i =>
      FS (fs_syms st) (filter (fun c => negb (Nat.eqb (fc_id c) i)) (fs_cls st))
         (filter (fun p => negb (Nat.eqb (fst p) i)) (fs_ufs st))
         (filter (fun p => negb (Nat.eqb (fst (fst p)) i)) (fs_ubv st)) (fs_next st)
  | OpVar name s =>
      FS (fst (Symbol (fs_syms st) name ([], s))) (fs_cls st) (fs_ufs st) (fs_ubv st) (fs_next st)
  | OpUbv i t size =>
      match find_cls (fs_cls st) i with
      | Some c => fst (to_ubv st (SFP c t) size)
      | None => st
      end
  end.
Definition frun (l : list fop) : fstate := fold_left fstep l fs_init.
End Simp.
