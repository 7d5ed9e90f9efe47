(** Specification of a dictionary whose keys are values: a list of (key, item) without repeated keys. *)
From Verif Require Import PyBase BVModel OpModel HeapModel DictModel.

(** What a key stands for: a vector of a class (kind and size) with a number, a Bit, or an int. *)
Inductive akey := AVec (c : bvcls) (z : Z) | ABit (b : bool) | ANum (z : Z).
Definition akey_eq (a b : akey) : {a = b} + {a <> b}.
Proof. repeat decide equality. Defined.
Definition key_of (v : pyval) : option akey :=
  match v with
  | VBV x => Some (AVec (bcls x) (bval x))
  | VBit b => Some (ABit b)
  | VInt z => Some (ANum z)
  | VBool b => Some (ANum (if b then 1 else 0))
  | VSeq _ | VStr _ | VOther _ _ _ => None
  end.
Definition same_class (a b : akey) : Prop :=
  match a, b with
  | AVec c _, AVec c' _ => c = c'
  | ABit _, ABit _ | ANum _, ANum _ => True
  | _, _ => False
  end.

Definition amap := list (akey * nat).
Definition aget (m : amap) (k : akey) : option nat :=
  option_map snd (find (fun p => if akey_eq (fst p) k then true else false) m).
(** The item of a key that is there is replaced where it is; a new key comes last. *)
Definition aset (m : amap) (k : akey) (i : nat) : amap :=
  match aget m k with
  | Some _ => map (fun p => if akey_eq (fst p) k then (k, i) else p) m
  | None => m ++ [(k, i)]
  end.
Definition adel (m : amap) (k : akey) : amap := filter (fun p => if akey_eq (fst p) k then false else true) m.

(** Lists are unhashable (TypeError); other objects as keys are outside of the model. *)
Definition no_key (v : pyval) : exn := match v with VSeq _ => ETypeError | _ => EOutOfModel end.
Definition astep (st : state) (m : amap) (o : dop) : amap * dout :=
  let at_key x (f : akey -> amap * dout) :=
    let v := deref (st_heap st) (var (st_env st) x) in
    match key_of v with Some k => f k | None => (m, Exc (no_key v)) end in
  match o with
  | DCall _ => (m, Done)
  | DStore x i => at_key x (fun k => (aset m k i, Done))
  | DLoad x => at_key x (fun k => (m, match aget m k with Some i => Item i | None => Exc EKeyError end))
  | DDel x => at_key x (fun k => match aget m k with Some _ => (adel m k, Done) | None => (m, Exc EKeyError) end)
  end.
Definition calls (st : state) (o : dop) : state := match o with DCall c => step st c | _ => st end.
Fixpoint arun (st : state) (m : amap) (l : list dop) : amap * list dout :=
  match l with
  | [] => (m, [])
  | o :: l => let (m, a) := astep st m o in let (m, r) := arun (calls st o) m l in (m, a :: r)
  end.

(** The keys the program passes to the dictionary, with the values they have at that moment. *)
Definition operand_key (st : state) (o : dop) : list akey :=
  match o with
  | DCall _ => []
  | DStore x _ | DLoad x | DDel x =>
      match key_of (deref (st_heap st) (var (st_env st) x)) with Some k => [k] | None => [] end
  end.
Fixpoint keys_used (st : state) (l : list dop) : list akey :=
  match l with [] => [] | o :: l => operand_key st o ++ keys_used (calls st o) l end.
Definition akey_hash (K : hashes) (k : akey) : Z :=
  match k with
  | AVec c z => hstr K (cls_name c ++ decimal z)%string
  | ABit b => hbit K b
  | ANum z => hint K z
  end.
(** No two keys of different classes have the same hash. *)
Definition no_collision (K : hashes) (ks : list akey) : Prop :=
  forall a b, In a ks -> In b ks -> akey_hash K a = akey_hash K b -> same_class a b.

(** The program never assigns to a bit of a vector that is a key of the dictionary at that moment. *)
Fixpoint keys_kept (K : hashes) (s : dst) (l : list dop) : Prop :=
  match l with
  | [] => True
  | o :: l =>
      match o with
      | DCall (KSet x _ _) => ~ In (var (st_env (d_state s)) x) (map e_key (d_dict s))
      | _ => True
      end /\ keys_kept K (fst (dstep K s o)) l
  end.
