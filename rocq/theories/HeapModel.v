(** Programs over a heap of mutable bit-vector objects: object identity, aliasing and item
    assignment (hwtypes/bit_vector.py, the only mutator is __setitem__, 226-241). Definitions only. *)
From Verif Require Import PyBase BVModel OpModel.

(** Immutable values: int, bool, Bit, string, foreign object (see [pyval] in BVModel.v). *)
Inductive lit := LInt (z : Z) | LBool (b : bool) | LBit (b : bool) | LStr (n : nat)
  | LOther (i : option (res Z)) (b : option (res bool)) (t : bool).
Definition lit_val (l : lit) : pyval :=
  match l with
  | LInt z => VInt z | LBool b => VBool b | LBit b => VBit b | LStr n => VStr n | LOther i b t => VOther i b t
  end.

(** What a Python variable can hold: a reference to a bit-vector object, a list of such values, or an
    immutable value. *)
Inductive hval := HRef (r : nat) | HList (l : list hval) | HImm (v : lit).

Definition heap := list bv.

(** Reading a variable through the heap. A dangling reference cannot occur (HeapFacts.v); it reads as an
    object without __int__. *)
Fixpoint deref (h : heap) (v : hval) : pyval :=
  match v with
  | HRef r => match nth_error h r with Some x => VBV x | None => VOther None None true end
  | HList l => VSeq (map (deref h) l)
  | HImm v => lit_val v
  end.

(** Storing a result: each bit-vector in it becomes a new object. *)
Fixpoint alloc (h : heap) (v : pyval) : heap * hval :=
  match v with
  | VBV x => (h ++ [x], HRef (length h))
  | VSeq l =>
      let fix go (h : heap) (l : list pyval) : heap * list hval :=
        match l with
        | [] => (h, [])
        | v :: l => let (h, a) := alloc h v in let (h, l) := go h l in (h, a :: l)
        end in
      let (h, l) := go h l in (h, HList l)
  | VInt z => (h, HImm (LInt z))
  | VBool b => (h, HImm (LBool b))
  | VBit b => (h, HImm (LBit b))
  | VStr n => (h, HImm (LStr n))
  | VOther i b t => (h, HImm (LOther i b t))
  end.

(** The public methods with one bit-vector result and one operand, bit_vector.py:272-308, 362-400 and
    bit_vector_abc.py:195-210. *)
Inductive meth2 := MAnd | MOr | MXor | MNand | MNor | MXnor | MShl | MLshr | MAshr | MRol | MRor | MComp
  | MAdd | MSub | MMul | MUdiv | MUrem | MSdiv | MSrem.
Definition meth2_fn (m : meth2) : bv -> pyval -> res rv :=
  match m with
  | MAnd => bvand | MOr => bvor | MXor => bvxor | MNand => bvnand | MNor => bvnor | MXnor => bvxnor
  | MShl => bvshl | MLshr => bvlshr | MAshr => bvashr | MRol => bvrol | MRor => bvror | MComp => bvcomp
  | MAdd => bvadd | MSub => bvsub | MMul => bvmul | MUdiv => bvudiv | MUrem => bvurem
  | MSdiv => bvsdiv | MSrem => bvsrem
  end.

(** One call of the API. Operands are variable numbers. Python control flow is not represented: an
    execution is the sequence of calls it performs, and every sequence is allowed. *)
Inductive call :=
| KLit (v : lit)                                (* int, bool, Bit, str, foreign object literal *)
| KList (xs : list nat)                         (* list display *)
| KItem (x : nat) (i : nat)                     (* element i of a list or result tuple *)
| KConstruct (k : kind) (n : Z) (a : nat)       (* K[n](a), bit_vector.py:182-205 *)
| KImplicit (k : kind) (a : nat)                (* K(a), bit_vector_abc.py:29-48 *)
| KMakeConst (x : nat) (a : nat) (n : option Z) (* type(x).make_constant(a, n), 207-212 *)
| KOp (op : binop) (a b : nat)                  (* a op b, 404-434 *)
| KCmp (c : cmpop) (a b : nat)                  (* a cmp b, 436-441 *)
| KMeth (m : meth2) (x a : nat)                 (* x.m(a) *)
| KNot (x : nat) | KNeg (x : nat)               (* ~x, -x, 269-270, 338-339 *)
| KGet (x : nat) (i : pyindex)                  (* x[i], 243-254 *)
| KConcat (x a : nat)                           (* x.concat(a), 263-267 *)
| KRepeat (x : nat) (r : Z) | KSext (x : nat) (e : Z) | KZext (x : nat) (e : Z) | KExt (x : nat) (e : Z)
| KAdc (x a c : nat)                            (* 341-357; the result pair is a list of two *)
| KBits (x : nat)                               (* x.bits(), 466-467 *)
| KUint (x : nat) | KSint (x : nat)             (* 443-450 *)
| KIte (c t f : nat)                            (* Bit(c).ite(t, f) on same-class vectors, 102-116 *)
| KRandom (k : kind) (draw : Z -> Z -> Z) (n : Z) (* 498-500, 510-512, 583-586 *)
| KSet (x : nat) (i : pyindex) (a : nat).       (* x[i] = a, 226-241 *)

(** Result of a call: an existing operand (by variable number) or a new value. *)
Inductive cres := CAlias (x : nat) | CNew (v : pyval).

Definition var (env : list hval) (x : nat) : hval := nth x env (HImm (LOther None None true)).

(** Methods exist only on bit-vectors: AttributeError otherwise. *)
Definition on_bv {A} (h : heap) (env : list hval) (x : nat) (k : bv -> res A) : res A :=
  match deref h (var env x) with
  | VBV b => k b
  | _ => Raise EAttributeError
  end.

Definition new_bv (r : res bv) : res cres := rmap (fun b => CNew (VBV b)) r.
Definition of_rv (x : nat) (r : rv) : cres := match r with New b => CNew (VBV b) | Self => CAlias x end.

Definition of_oret (a b : nat) (r : oret) : res cres :=
  match r with
  | NotImpl => Raise ETypeError
  | OLeft => Ok (CAlias a)
  | ORight => Ok (CAlias b)
  | ONew v => Ok (CNew v)
  end.

(** The calls that do not assign. *)
Definition eval (h : heap) (env : list hval) (c : call) : res cres :=
  let arg x := deref h (var env x) in
  match c with
  | KLit v => Ok (CNew (lit_val v))
  | KList _ | KItem _ _ => Ok (CNew (VInt 0))                   (* handled by [step] *)
  | KConstruct k n a => new_bv (construct k n (arg a))
  | KImplicit k a => new_bv (construct_implicit k (arg a))
  | KMakeConst x a n => on_bv h env x (fun b => new_bv (make_constant (bcls b) (arg a) n))
  | KOp op a b => r <- py_binop op (arg a) (arg b) ;; of_oret a b r
  | KCmp c a b => r <- py_cmp c (arg a) (arg b) ;; of_oret a b r
  | KMeth m x a => on_bv h env x (fun b => rmap (of_rv x) (meth2_fn m b (arg a)))
  | KNot x => on_bv h env x (fun b => Ok (CNew (VBV (bvnot b))))
  | KNeg x => on_bv h env x (fun b => Ok (CNew (VBV (bvneg b))))
  | KGet x i => on_bv h env x (fun b => rmap CNew (getitem b i))
  | KConcat x a => on_bv h env x (fun b => new_bv (concat b (arg a)))
  | KRepeat x r => on_bv h env x (fun b => new_bv (bv_repeat b r))
  | KSext x e => on_bv h env x (fun b => new_bv (sext b e))
  | KZext x e => on_bv h env x (fun b => new_bv (zext b e))
  | KExt x e => on_bv h env x (fun b => new_bv (ext b e))
  | KAdc x a c => on_bv h env x (fun b =>
      rmap (fun p => CNew (VSeq [VBV (fst p); VBit (snd p)])) (adc b (arg a) (arg c)))
  | KBits x => on_bv h env x (fun b => Ok (CNew (VSeq (map VInt (bits b)))))
  | KUint x => on_bv h env x (fun b => Ok (CNew (VInt (as_uint b))))
  | KSint x => on_bv h env x (fun b => rmap (fun z => CNew (VInt z)) (as_sint b))
  | KIte c t f =>
      b <- bit_init (arg c) ;;
      on_bv h env t (fun x => on_bv h env f (fun y =>
        if cls_eqb (bcls x) (bcls y) then new_bv (bv_init (bcls x) (VBV (if (b : bool) then x else y)))
        else Raise EOutOfModel))
  | KRandom k draw n => new_bv (bv_random k draw n)
  | KSet _ _ _ => Ok (CNew (VInt 0))                            (* handled by [step] *)
  end.

Fixpoint update {A} (l : list A) (i : nat) (a : A) : list A :=
  match l, i with
  | [], _ => []
  | _ :: l, O => a :: l
  | b :: l, S i => b :: update l i a
  end.

Record state := State { st_heap : heap; st_env : list hval }.

(** One call. A raised exception leaves heap and variables alone (the program may catch it); the
    result is bound to a new variable. *)
Definition step (s : state) (c : call) : state :=
  let h := st_heap s in
  let env := st_env s in
  match c with
  | KSet x i a =>
      match var env x with
      | HRef r =>
          match nth_error h r with
          | Some b =>
              match setitem b i (deref h (var env a)) with
              | Ok b' => State (update h r b') env
              | Raise _ => s
              end
          | None => s
          end
      | _ => s                          (* lists and immutable values: no bit-vector is assigned to *)
      end
  | KList xs => State h (env ++ [HList (map (var env) xs)])
  | KItem x i =>
      match var env x with
      | HList l => match nth_error l i with Some v => State h (env ++ [v]) | None => s end
      | _ => s
      end
  | _ =>
      match eval h env c with
      | Ok (CAlias x) => State h (env ++ [var env x])
      | Ok (CNew v) => let (h', a) := alloc h v in State h' (env ++ [a])
      | Raise _ => s
      end
  end.

Definition run (s : state) (p : list call) : state := fold_left step p s.
Definition start : state := State [] [].
