(** TypedProperty and Method (hwtypes/util.py:43-149) with Python's attribute access. Definitions only. C3 comes from MetaModel.v.
    Functions, types and values of the program are numbered; [inst v T] is isinstance(v, T). What a function does when called is left
    out: the model records the call. Docstrings are left out; metaclasses define no attributes; types have no attributes called
    getter, setter or deleter. *)
From Verif Require Import PyBase MetaModel.

(** A TypedProperty object, 76-82. *)
Record tprop := TP { p_T : nat; p_final : bool; p_get : option nat; p_set : option nat; p_del : option nat }.
(** What a class defines under a name: a TypedProperty object, a Method(f), or a value that is no descriptor. *)
Inductive cattr := AProp (p : nat) | AMeth (f : nat) | AVal (v : nat).
Record pcls := PC { pc_qual : string; pc_mro : list nat; pc_attrs : list (string * cattr) }.
Record pobj := PO { po_cls : nat; po_dict : list (string * nat) }.
(** The program: TypedProperty objects, classes (0 is object), instances, and f.__name__, f.__qualname__ of the functions that
    were named by a Method, latest first. *)
Record pst := PS { tprops : list tprop; pclasses : list pcls; pobjs : list pobj; fnames : list (nat * (string * string)) }.
Definition pst0 : pst := PS [] [PC "object" [0%nat] []] [] [].

Definition pget (s : pst) (p : nat) : tprop := nth p (tprops s) (TP 0 false None None None).
Definition pcget (s : pst) (c : nat) : pcls := nth c (pclasses s) (PC "" [] []).
Definition poget (s : pst) (o : nat) : pobj := nth o (pobjs s) (PO 0 []).
Fixpoint set_nth {A} (l : list A) (i : nat) (x : A) : list A :=
  match l, i with
  | [], _ => []
  | _ :: l, O => x :: l
  | y :: l, S i => y :: set_nth l i x
  end.
Definition put_prop (s : pst) (p : nat) (x : tprop) : pst := PS (set_nth (tprops s) p x) (pclasses s) (pobjs s) (fnames s).
Definition put_class (s : pst) (c : nat) (x : pcls) : pst := PS (tprops s) (set_nth (pclasses s) c x) (pobjs s) (fnames s).
Definition put_obj (s : pst) (o : nat) (x : pobj) : pst := PS (tprops s) (pclasses s) (set_nth (pobjs s) o x) (fnames s).

(** TypedProperty(T), 76-82 *)
Definition tp_new (s : pst) (T : nat) : pst * nat :=
  (PS (tprops s ++ [TP T false None None None]) (pclasses s) (pobjs s) (fnames s), length (tprops s)).
(** p(fget, fset, fdel), 84-91: changes p and returns it. *)
Definition tp_call (s : pst) (p : nat) (g st d : option nat) : pst * nat :=
  (put_prop s p (TP (p_T (pget s p)) (p_final (pget s p)) g st d), p).
(** p.getter(f), p.setter(f), p.deleter(f), 119-126 *)
Definition tp_getter (s : pst) (p f : nat) : pst * nat :=
  let x := pget s p in let '(s, q) := tp_new s (p_T x) in tp_call s q (Some f) (p_set x) (p_del x).
Definition tp_setter (s : pst) (p f : nat) : pst * nat :=
  let x := pget s p in let '(s, q) := tp_new s (p_T x) in tp_call s q (p_get x) (Some f) (p_del x).
Definition tp_deleter (s : pst) (p f : nat) : pst * nat :=
  let x := pget s p in let '(s, q) := tp_new s (p_T x) in tp_call s q (p_get x) (p_set x) (Some f).

(** What an expression gives: a property object, a type, a value, a function, a function bound to an object, what the function f
    returned, or None. [called]: the calls made, f(o) or f(o, v). *)
Inductive pres := RProp (p : nat) | RType (T : nat) | RVal (v : nat) | RFun (f : nat) | RBound (f o : nat) | RRet (f : nat) | RNone.
Record call := Call { c_fun : nat; c_self : nat; c_arg : option nat }.
Definition called := list call.

(** p.__get__(None, cls) and p.__get__(obj), 93-102 *)
Definition tp_get_cls (s : pst) (p : nat) : pres := if p_final (pget s p) then RType (p_T (pget s p)) else RProp p.
Definition tp_get_obj (s : pst) (p o : nat) : res pres * called :=
  match p_get (pget s p) with
  | None => (Raise EAttributeError, [])
  | Some f => (Ok (RRet f), [Call f o None])
  end.
(** p.__set__(obj, value), 104-109 *)
Definition tp_set_obj (inst : nat -> nat -> bool) (s : pst) (p o v : nat) : res pres * called :=
  match p_set (pget s p) with
  | None => (Raise EAttributeError, [])
  | Some f => if negb (inst v (p_T (pget s p))) then (Raise ETypeError, []) else (Ok RNone, [Call f o (Some v)])
  end.
(** p.__delete__(obj), 111-114 *)
Definition tp_del_obj (s : pst) (p o : nat) : res pres * called :=
  match p_del (pget s p) with
  | None => (Raise EAttributeError, [])
  | Some f => (Ok RNone, [Call f o None])
  end.

(** __set_name__(cls, name): 116-117 for a TypedProperty, 141-143 for a Method. *)
Definition set_name (s : pst) (qual : string) (e : string * cattr) : pst :=
  match snd e with
  | AProp p => let x := pget s p in put_prop s p (TP (p_T x) true (p_get x) (p_set x) (p_del x))
  | AMeth f => PS (tprops s) (pclasses s) (pobjs s) ((f, (fst e, (qual ++ "." ++ fst e)%string)) :: fnames s)
  | AVal _ => s
  end.
Definition pc3 (s : pst) (bases : list nat) : option (list nat) :=
  let ls := map (fun b => pc_mro (pcget s b)) bases ++ [bases] in merge (total_len ls) ls.
(** class qual(bases): body. type.__new__ calls __set_name__ on the attributes, in order. *)
Definition pclass_stmt (s : pst) (qual : string) (bases : list nat) (body : list (string * cattr)) : res (pst * nat) :=
  let bases := match bases with [] => [0%nat] | _ => bases end in
  match pc3 s bases with
  | None => Raise ETypeError
  | Some l =>
      let c := length (pclasses s) in
      let s := PS (tprops s) (pclasses s ++ [PC qual (c :: l) body]) (pobjs s) (fnames s) in
      Ok (fold_left (fun s e => set_name s qual e) body s, c)
  end.

(** Attribute access. TypedProperty is a data descriptor, Method is not. *)
Definition passoc {A} (n : string) (l : list (string * A)) : option A := option_map snd (find (fun e => String.eqb (fst e) n) l).
Definition premove {A} (n : string) (l : list (string * A)) : list (string * A) := filter (fun e => negb (String.eqb (fst e) n)) l.
Fixpoint pfind (s : pst) (n : string) (l : list nat) : option cattr :=
  match l with
  | [] => None
  | c :: l => match passoc n (pc_attrs (pcget s c)) with Some a => Some a | None => pfind s n l end
  end.
Definition plookup (s : pst) (c : nat) (n : string) : option cattr := pfind s n (pc_mro (pcget s c)).
(** C.n *)
Definition cls_get (s : pst) (c : nat) (n : string) : res pres :=
  match plookup s c n with
  | Some (AProp p) => Ok (tp_get_cls s p)
  | Some (AMeth f) => Ok (RFun f)                                    (* 138-139 *)
  | Some (AVal v) => Ok (RVal v)
  | None => Raise EAttributeError
  end.
(** C.n = a, del C.n: no __set_name__. *)
Definition cls_set (s : pst) (c : nat) (n : string) (a : cattr) : pst :=
  let x := pcget s c in put_class s c (PC (pc_qual x) (pc_mro x) ((n, a) :: premove n (pc_attrs x))).
Definition cls_del (s : pst) (c : nat) (n : string) : pst :=
  let x := pcget s c in put_class s c (PC (pc_qual x) (pc_mro x) (premove n (pc_attrs x))).
(** o.n, o.n = v, del o.n *)
Definition obj_get (s : pst) (o : nat) (n : string) : res pres * called :=
  match plookup s (po_cls (poget s o)) n with
  | Some (AProp p) => tp_get_obj s p o
  | a =>
      match passoc n (po_dict (poget s o)) with
      | Some v => (Ok (RVal v), [])
      | None => match a with
                | Some (AMeth f) => (Ok (RBound f o), [])            (* 136-137 *)
                | Some (AVal v) => (Ok (RVal v), [])
                | _ => (Raise EAttributeError, [])
                end
      end
  end.
Definition obj_set (inst : nat -> nat -> bool) (s : pst) (o : nat) (n : string) (v : nat) : pst * (res pres * called) :=
  match plookup s (po_cls (poget s o)) n with
  | Some (AProp p) => (s, tp_set_obj inst s p o v)
  | _ => (put_obj s o (PO (po_cls (poget s o)) ((n, v) :: premove n (po_dict (poget s o)))), (Ok RNone, []))
  end.
Definition obj_del (s : pst) (o : nat) (n : string) : pst * (res pres * called) :=
  match plookup s (po_cls (poget s o)) n with
  | Some (AProp p) => (s, tp_del_obj s p o)
  | _ =>
      match passoc n (po_dict (poget s o)) with
      | Some _ => (put_obj s o (PO (po_cls (poget s o)) (premove n (po_dict (poget s o)))), (Ok RNone, []))
      | None => (s, (Raise EAttributeError, []))
      end
  end.
(** Decorators p.getter, p.setter, p.deleter, and the same on what C.n gives. *)
Inductive deco := DGet (f : nat) | DSet (f : nat) | DDel (f : nat).
Definition decorate (s : pst) (p : nat) (d : deco) : pst * nat :=
  match d with DGet f => tp_getter s p f | DSet f => tp_setter s p f | DDel f => tp_deleter s p f end.
Definition cls_decorate (s : pst) (c : nat) (n : string) (d : deco) : res (pst * nat) :=
  r <- cls_get s c n ;;
  match r with
  | RProp p => Ok (decorate s p d)
  | _ => Raise EAttributeError
  end.

(** A declaration: TypedProperty(T)(fget, fset, fdel), then decorators one after the other, each applied to the result of the one
    before. *)
Definition declare (s : pst) (T : nat) (g st d : option nat) (ds : list deco) : pst * nat :=
  let '(s, p) := tp_new s T in
  fold_left (fun r d => decorate (fst r) (snd r) d) ds (tp_call s p g st d).

(** What programs do. Reading changes nothing. *)
Inductive pop :=
| ONew (T : nat)
| OCall (p : nat) (g st d : option nat)
| ODeco (p : nat) (d : deco)
| OClass (qual : string) (bases : list nat) (body : list (string * cattr))
| OClsSet (c : nat) (n : string) (a : cattr)
| OClsDel (c : nat) (n : string)
| OObj (c : nat)
| OObjSet (o : nat) (n : string) (v : nat)
| OObjDel (o : nat) (n : string).
Fixpoint distinct (l : list string) : bool := match l with [] => true | x :: l => negb (existsb (String.eqb x) l) && distinct l end.
Definition attr_ok (s : pst) (a : cattr) : bool := match a with AProp p => Nat.ltb p (length (tprops s)) | _ => true end.
Definition pstep (inst : nat -> nat -> bool) (s : pst) (o : pop) : pst :=
  match o with
  | ONew T => fst (tp_new s T)
  | OCall p g st d => if Nat.ltb p (length (tprops s)) then fst (tp_call s p g st d) else s
  | ODeco p d => if Nat.ltb p (length (tprops s)) then fst (decorate s p d) else s
  | OClass qual bases body =>
      if forallb (fun b => Nat.ltb b (length (pclasses s))) bases && forallb (fun e => attr_ok s (snd e)) body && distinct (map fst body)
      then match pclass_stmt s qual bases body with Ok (s, _) => s | Raise _ => s end
      else s
  | OClsSet c n a => if Nat.ltb c (length (pclasses s)) && negb (Nat.eqb c 0) && attr_ok s a then cls_set s c n a else s
  | OClsDel c n => if Nat.ltb c (length (pclasses s)) && negb (Nat.eqb c 0) then cls_del s c n else s
  | OObj c => if Nat.ltb c (length (pclasses s)) then PS (tprops s) (pclasses s) (pobjs s ++ [PO c []]) (fnames s) else s
  | OObjSet o n v => if Nat.ltb o (length (pobjs s)) then fst (obj_set inst s o n v) else s
  | OObjDel o n => if Nat.ltb o (length (pobjs s)) then fst (obj_del s o n) else s
  end.
Definition prun (inst : nat -> nat -> bool) (s : pst) (h : list pop) : pst := fold_left (pstep inst) h s.
(** f.__name__ and f.__qualname__ as last set by a Method. *)
Definition fname (s : pst) (f : nat) : option (string * string) := option_map snd (find (fun e => Nat.eqb (fst e) f) (fnames s)).
