(** Specification of typed properties: what a declaration says, and which statements leave a property alone. *)
From Verif Require Import PyBase TPropModel.

(** The accessors of a declaration: the last getter, setter and deleter that was written. *)
Fixpoint last_get (g : option nat) (ds : list deco) : option nat :=
  match ds with [] => g | DGet f :: ds => last_get (Some f) ds | _ :: ds => last_get g ds end.
Fixpoint last_set (g : option nat) (ds : list deco) : option nat :=
  match ds with [] => g | DSet f :: ds => last_set (Some f) ds | _ :: ds => last_set g ds end.
Fixpoint last_del (g : option nat) (ds : list deco) : option nat :=
  match ds with [] => g | DDel f :: ds => last_del (Some f) ds | _ :: ds => last_del g ds end.

(** The statement does not call the property object [q] itself (util.py:72-73: TypedProperty objects must not be modified outside of
    the class in which they are declared). *)
Definition spares (q : nat) (o : pop) : Prop := match o with OCall p _ _ _ => p <> q | _ => True end.
(** The statement does not assign or delete the attribute [n] of the class [c]. *)
Definition keeps (c : nat) (n : string) (o : pop) : Prop :=
  match o with OClsSet c' n' _ | OClsDel c' n' => ~ (c' = c /\ n' = n) | _ => True end.

(** Attribute access on objects of the class [c] reaches the definition of [n] in the class [d]: [d] is the first class of the method
    resolution order that defines [n]. *)
Definition defines (s : pst) (c : nat) (n : string) : Prop := exists a, In (n, a) (pc_attrs (pcget s c)).
Definition reaches (s : pst) (c : nat) (n : string) (d : nat) : Prop :=
  exists l1 l2, pc_mro (pcget s c) = l1 ++ d :: l2 /\ (forall x, In x l1 -> ~ defines s x n) /\ defines s d n.

(** A program: it runs [h], evaluates a declaration, executes a class statement with a body that binds [n] to it, and runs [h'] without
    touching them. [s] is the state then, and [c] the class. *)
Inductive declared (inst : nat -> nat -> bool) : pst -> nat -> string -> nat -> option nat -> option nat -> option nat -> Prop :=
| Declared : forall h h' T g st d ds q qual bases body n s2 s3 c,
    declare (prun inst pst0 h) T g st d ds = (s2, q) ->
    In (n, AProp q) body -> NoDup (map fst body) -> (forall m p, In (m, AProp p) body -> (p < length (tprops s2))%nat) ->
    (forall b, In b bases -> (b < length (pclasses s2))%nat) ->
    pclass_stmt s2 qual bases body = Ok (s3, c) ->
    Forall (spares q) h' -> Forall (keeps c n) h' ->
    declared inst (prun inst s3 h') c n T (last_get g ds) (last_set st ds) (last_del d ds).

(** The same for a Method: the body binds [n] to Method(f), and f is in no other Method. *)
Definition no_method (f : nat) (body : list (string * cattr)) : Prop := forall m, ~ In (m, AMeth f) body.
Definition keeps_method (f : nat) (o : pop) : Prop := match o with OClass _ _ body => no_method f body | _ => True end.
Inductive method_of (inst : nat -> nat -> bool) : pst -> nat -> string -> string -> nat -> Prop :=
| Method_of : forall h h' qual bases b1 n f b2 s3 c,
    NoDup (map fst (b1 ++ (n, AMeth f) :: b2)) -> no_method f (b1 ++ b2) ->
    pclass_stmt (prun inst pst0 h) qual bases (b1 ++ (n, AMeth f) :: b2) = Ok (s3, c) ->
    Forall (keeps_method f) h' -> Forall (keeps c n) h' ->
    method_of inst (prun inst s3 h') c n qual f.

(** class A: x = TypedProperty(7) with getter 1 and setter 2; class B(A): pass; a = A(); b = B(). Values are instances of 7 if they are below 10. *)
Definition ex_inst (v T : nat) : bool := Nat.ltb v 10.
Definition ex_body : list (string * cattr) := [("x", AProp 1)]%string%nat.
Definition ex_after : list pop := [OClass "B" [1%nat] []; OObj 1; OObj 2; OObjSet 0 "x" 3].
Definition ex_state : pst :=
  match pclass_stmt (fst (declare pst0 7 (Some 1%nat) None None [DSet 2])) "A" [] ex_body with
  | Ok (s, _) => prun ex_inst s ex_after
  | Raise _ => pst0
  end.
Definition ex_meth : pst := match pclass_stmt pst0 "V" [] [("__and__", AMeth 4)]%string with Ok (s, _) => prun ex_inst s [OObj 1] | Raise _ => pst0 end.
