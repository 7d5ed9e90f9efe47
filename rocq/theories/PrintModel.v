(** Names of classes and printing of values: __name__, __repr__, __str__ of Bit, BitVector, Tuple, AnonymousProduct,
    Product, Sum, TaggedUnion and Enum, and of modified types; and a fragment of Python expressions, to read what was
    printed. Definitions only.
    Types and values are those of ADTTy.v and ADTModel.v: [VAtom t z] is a Bit (z is 0 or 1), a bit-vector with _value z, or the
    member number z of an Enum. *)
From Coq Require Import String Ascii.
From Verif Require Import PyBase BVModel OpModel ADTTy ADTModel.
Local Open Scope string_scope. Local Open Scope Z_scope.

(** What the model does not compute: names of modifiers; names and printed forms of the classes that are no concrete Bit or
    bit-vector; the name of a Sum, which lists a frozenset in no particular order (adt_meta.py:93, 306-307). *)
Record env := { e_mod : Z -> string; e_leaf : leaf -> string; e_sum : list Z -> list ty -> string; e_atom : ty -> Z -> res string }.

(** ", ".join(l) *)
Fixpoint join (l : list string) : string :=
  match l with
  | [] => ""
  | [s] => s
  | s :: l => s ++ ", " ++ join l
  end.
(** str of an int. *)
Definition int_str (z : Z) : string := if z <? 0 then "-" ++ decimal (- z) else decimal z.
(** str of a bool. *)
Definition bool_str (b : bool) : string := if b then "True" else "False".

(** The name of an unbound class with modifiers, outermost first (modifiers.py:52). *)
Definition mod_name (E : env) (u : list Z) (s : string) : string := fold_right (fun m s => e_mod E m ++ s) s u.
(** cls.__name__: bit_vector_abc.py:93, adt_meta.py:306-307 (Tuple), 430-431 (AnonymousProduct), the name of the class
    statement (Product, TaggedUnion, Enum), modifiers.py:52. *)
Fixpoint tname (E : env) (t : ty) : string :=
  match t with
  | TLeaf (LBit 0) => "Bit"
  | TLeaf (LVec 0 k (Some n)) => cls_name (BVC k n)
  | TLeaf l => e_leaf E l
  | TEnum n _ => n
  | TNode KTuple u fs => mod_name E u "Tuple" ++ "[" ++ join (map (fun f => tname E (snd f)) fs) ++ "]"
  | TNode KAnon u fs => mod_name E u "AnonymousProduct" ++ "[{" ++ join (map (fun f => "'" ++ fst f ++ "': " ++ tname E (snd f)) fs) ++ "}]"
  | TNode KSum u fs => e_sum E u (types fs)
  | TNode (KProd n _) _ _ | TNode (KTag n _) _ _ => n
  | TMod m t => e_mod E m ++ tname E t
  end.
(** What the values of a class that is no product or union are: the class under the modifiers. *)
Fixpoint strip (t : ty) : ty := match t with TMod _ t => strip t | _ => t end.

(** repr of values that are no product or union: bit_vector.py:124-125, 220-221, adt.py:263-264. *)
Definition atom_repr (E : env) (t : ty) (z : Z) : res string :=
  match strip t with
  | TLeaf (LBit 0) => Ok (tname E t ++ "(" ++ bool_str (negb (z =? 0)) ++ ")")
  | TLeaf (LVec 0 _ (Some _)) => Ok (tname E t ++ "(" ++ int_str z ++ ")")
  | TEnum _ ms => match nth_error ms (Z.to_nat z) with Some m => Ok (tname E t ++ "." ++ fst m) | None => Raise EOutOfModel end
  | _ => e_atom E t z
  end.
(** str: a bit-vector prints int(self) (bit_vector.py:217-218; 454-455, 518-519), which may raise; the others have no
    __str__ and print their repr. *)
Definition atom_str (E : env) (t : ty) (z : Z) : res string :=
  match strip t with
  | TLeaf (LVec 0 k (Some n)) => i <- bv_int (BV (BVC k n) z) ;; Ok (int_str i)
  | _ => atom_repr E t z
  end.
(** repr of a value: Tuple adt.py:56-57, AnonymousProduct and Product 95-96 (value_dict lists the fields in order, 98-103),
    Sum 165-166, TaggedUnion 235-236 (value_dict gives None for the other fields, 238-247). f'{v}' is str(v). *)
Fixpoint vrepr (E : env) (v : val) : res string :=
  let vstr := fun v => match v with VAtom t z => atom_str E t z | _ => vrepr E v end in
  match v with
  | VAtom t z => atom_repr E t z
  | VTup t _ vs =>
      match node_of t with
      | Some (KTuple, _) => l <- sequence (map (vrepr E) vs) ;; Ok (tname E t ++ "(" ++ join l ++ ")")
      | Some (_, fs) =>
          l <- sequence (map vstr vs) ;;
          Ok (tname E t ++ "(" ++ join (map (fun p => fst p ++ "=" ++ snd p) (combine (names fs) l)) ++ ")")
      | None => Raise EOutOfModel
      end
  | VSum t v => s <- vstr v ;; Ok (tname E t ++ "(" ++ s ++ ")")
  | VTag t i v =>
      match node_of t with
      | Some (_, fs) =>
          s <- vstr v ;;
          Ok (tname E t ++ "(" ++ join (map (fun p => snd p ++ "=" ++ (if Nat.eqb (fst p) i then s else "None")) (combine (seq 0 (length fs)) (names fs))) ++ ")")
      | None => Raise EOutOfModel
      end
  end.
Definition vstr (E : env) (v : val) : res string := match v with VAtom t z => atom_str E t z | _ => vrepr E v end.

(** ** Reading: expressions made of names, non-negative numbers, True and False, subscripts and calls, as Python writes and
    evaluates them after "from hwtypes import *". *)
Inductive expr := XName (s : string) | XInt (z : Z) | XBool (b : bool) | XItem (e : expr) (l : list expr) | XCall (e : expr) (l : list expr).
Fixpoint unparse (e : expr) : string :=
  match e with
  | XName s => s
  | XInt z => int_str z
  | XBool b => bool_str b
  | XItem e l => unparse e ++ "[" ++ join (map unparse l) ++ "]"
  | XCall e l => unparse e ++ "(" ++ join (map unparse l) ++ ")"
  end.
Inductive pobj := PKind (k : kind) | PTuple | PType (t : ty) | PVal (v : val) | PInt (z : Z) | PBool (b : bool).
Definition lookup (s : string) : res pobj :=
  if String.eqb s "Bit" then Ok (PType (TLeaf (LBit 0)))
  else if String.eqb s "BitVector" then Ok (PKind KBV)
  else if String.eqb s "NumVector" then Ok (PKind KNum)
  else if String.eqb s "UIntVector" then Ok (PKind KUInt)
  else if String.eqb s "SIntVector" then Ok (PKind KSInt)
  else if String.eqb s "Tuple" then Ok PTuple
  else Raise ENameError.
(** K[n] and Tuple[...] (bit_vector_abc.py:75-97, adt_meta.py:78-95). *)
Definition item (o : pobj) (l : list pobj) : res pobj :=
  match o with
  | PKind k => match l with [PInt n] => c <- sized k n ;; Ok (PType (TLeaf (LVec 0 (ck c) (Some (csize c))))) | _ => Raise ETypeError end
  | PTuple =>
      match l with
      | [] => Raise ESyntaxError
      | _ => ts <- mapM (fun o => match o with PType t => Ok t | _ => Raise ETypeError end) l ;; Ok (PType (TNode KTuple [] (unnamed ts)))
      end
  | _ => Raise EOutOfModel
  end.
(** Bit(x), K[n](x), Tuple[...](x, ...) *)
Definition apply (H : Z -> Z -> bool) (o : pobj) (l : list pobj) : res pobj :=
  match o with
  | PType (TLeaf (LBit 0)) =>
      match l with
      | [PBool b] => b <- bit_init (VBool b) ;; Ok (PVal (VAtom (TLeaf (LBit 0)) (b2z b)))
      | [PInt z] => b <- bit_init (VInt z) ;; Ok (PVal (VAtom (TLeaf (LBit 0)) (b2z b)))
      | _ => Raise EOutOfModel
      end
  | PType (TLeaf (LVec 0 k (Some n))) =>
      match l with [PInt z] => x <- bv_init (BVC k n) (VInt z) ;; Ok (PVal (VAtom (TLeaf (LVec 0 k (Some n))) (bval x))) | _ => Raise EOutOfModel end
  | PType t =>
      vs <- mapM (fun o => match o with PVal v => Ok v | _ => Raise EOutOfModel end) l ;;
      v <- vcall H t vs [] ;; Ok (PVal v)
  | _ => Raise EOutOfModel
  end.
Fixpoint eval (H : Z -> Z -> bool) (e : expr) : res pobj :=
  match e with
  | XName s => lookup s
  | XInt z => Ok (PInt z)
  | XBool b => Ok (PBool b)
  | XItem e l => o <- eval H e ;; os <- sequence (map (eval H) l) ;; item o os
  | XCall e l => o <- eval H e ;; os <- sequence (map (eval H) l) ;; apply H o os
  end.
