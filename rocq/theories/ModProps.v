(** C50: type modifiers M(T), over every history of class statements, applications and garbage collection. *)
From Coq Require Import Lia.
From Verif Require Import PyBase BVFacts MetaModel MergeFacts ModModel ModSpec ModFacts ModStepFacts ModRunFacts.
From Verif Require Import ModProofs.

(** issubclass follows the __bases__. *)
Theorem C50_issubclass : forall s a b, reachable s -> live s a = true -> (is_sub s a b = true <-> ancestor s a b).
Proof. exact C50_issubclass_pf. Qed.
Print Assumptions C50_issubclass.
(** M(T) is M(T), whatever happens between the two calls, as long as the first result is still there. *)
Theorem C50_same : forall s m c s' t h, reachable s -> mlive s m = true -> live s c = true ->
  call s m c = (s', Ok t) ->
  let now := orun (ostep s (OApply m c)) h in
  live now t = true -> call now m c = (now, Ok t).
Proof. exact C50_same_pf. Qed.
Print Assumptions C50_same.
(** What is held stays, with everything above it. *)
Theorem C50_held : forall s c x, reachable s -> In c (held s) -> ancestor s c x -> live s x = true.
Proof. exact C50_held_pf. Qed.
Print Assumptions C50_held.
(** get_modifier(M(T)) is M, get_unmodified(M(T)) is T, issubclass(M(T), M), now and later. *)
Theorem C50_parts : forall s m c s' t h, reachable s -> mlive s m = true -> live s c = true ->
  call s m c = (s', Ok t) ->
  let now := orun (ostep s (OApply m c)) h in
  live now t = true ->
  is_modified now t = true /\ get_modifier now t = Ok m /\ get_unmodified now t = Ok c /\ subclasscheck now m t = true.
Proof. exact C50_parts_pf. Qed.
Print Assumptions C50_parts.
(** M(T) is a subclass of T and of every superclass S of T, and of M(S). *)
Theorem C50_subclass : forall s m c s' t, reachable s -> mlive s m = true -> live s c = true ->
  call s m c = (s', Ok t) ->
  forall x, ancestor s c x -> is_sub s' t x = true /\ exists tx, call s' m x = (s', Ok tx) /\ is_sub s' t tx = true.
Proof. exact C50_subclass_pf. Qed.
Print Assumptions C50_subclass.
(** The method resolution order of M(T) is that of T with M(S) in front of every S. *)
Theorem C50_mro : forall s m c s' t, reachable s -> mlive s m = true -> live s c = true ->
  call s m c = (s', Ok t) ->
  exists f, (forall x, In x (k_mro (get_kls s c)) -> call s' m x = (s', Ok (f x))) /\
    k_mro (get_kls s' t) = flat_map (fun x => [f x; x]) (k_mro (get_kls s c)).
Proof. exact C50_mro_pf. Qed.
Print Assumptions C50_mro.
(** M(T) works exactly when M was not yet applied to T or to something above T; otherwise it is a TypeError. *)
Theorem C50_applies : forall s m c, reachable s -> mlive s m = true -> m <> 0%nat -> live s c = true ->
  ((exists s' t, call s m c = (s', Ok t)) <-> ~ modified_above s m c) /\
  (modified_above s m c -> exists s', call s m c = (s', Raise ETypeError)).
Proof. exact C50_applies_pf. Qed.
Print Assumptions C50_applies.
(** AbstractModifier cannot be applied. *)
Theorem C50_abstract : forall s c, call s 0 c = (s, Raise ETypeError).
Proof. exact C50_abstract_pf. Qed.
Print Assumptions C50_abstract.
(** issubclass(T, M) holds exactly for the classes M(S); in particular not for plain subclasses of them. *)
Theorem C50_modifier_subclasses : forall s m t, reachable s -> live s t = true ->
  (subclasscheck s m t = true <-> get_modifier s t = Ok m) /\
  (subclasscheck s m t = true <-> exists c, live s c = true /\ call s m c = (s, Ok t)).
Proof. exact C50_modifier_subclasses_pf. Qed.
Print Assumptions C50_modifier_subclasses.
(** A class made by a class statement, also one deriving from M(T), stays without a modifier. *)
Theorem C50_plain : forall s bs s' t h, reachable s -> bs <> [] -> forallb (live s) bs = true ->
  make_class s bs = (s', Ok t) ->
  let now := orun (ostep s (OClass bs)) h in
  live now t = true ->
  is_modified now t = false /\ get_modifier now t = Raise ETypeError /\ get_unmodified now t = Raise ETypeError /\
  unwrap_modifier now t = Ok (t, []) /\ get_all_modifiers now t = Ok [] /\ forall m, subclasscheck now m t = false.
Proof. exact C50_plain_pf. Qed.
Print Assumptions C50_plain.
(** M(T) is N(U) only if M is N and T is U. *)
Theorem C50_injective : forall s m c s' t m2 c2 s2, reachable s -> mlive s m = true -> live s c = true ->
  call s m c = (s', Ok t) -> mlive s' m2 = true -> live s' c2 = true -> call s' m2 c2 = (s2, Ok t) -> m2 = m /\ c2 = c.
Proof. exact C50_injective_pf. Qed.
Print Assumptions C50_injective.
(** wrap_modifier applied to the two parts of unwrap_modifier(T) is T, and the first part has no modifier left. *)
Theorem C50_wrap_unwrap : forall s t, reachable s -> live s t = true ->
  exists u ms, unwrap_modifier s t = Ok (u, ms) /\ is_modified s u = false /\ ancestor s t u /\ get_all_modifiers s t = Ok ms
    /\ NoDup ms /\ wrap_modifier s u ms = (s, Ok t).
Proof. exact C50_wrap_unwrap_pf. Qed.
Print Assumptions C50_wrap_unwrap.
(** unwrap_modifier(wrap_modifier(T, mods)) is (T, mods) for an unmodified T. *)
Theorem C50_unwrap_wrap : forall s u ms s' t, reachable s -> live s u = true -> (forall m, In m ms -> mlive s m = true) ->
  is_modified s u = false -> wrap_modifier s u ms = (s', Ok t) -> unwrap_modifier s' t = Ok (u, ms).
Proof. exact C50_unwrap_wrap_pf. Qed.
Print Assumptions C50_unwrap_wrap.
(** wrap_modifier refuses repeated modifiers, and otherwise works when none of them is in T already. *)
Theorem C50_wrap : forall s u ms, reachable s -> live s u = true -> (forall m, In m ms -> mlive s m = true /\ m <> 0%nat) ->
  (~ NoDup ms -> wrap_modifier s u ms = (s, Raise ETypeError)) /\
  (NoDup ms -> (forall m, In m ms -> ~ modified_above s m u) -> exists s' t, wrap_modifier s u ms = (s', Ok t)).
Proof. exact C50_wrap_pf. Qed.
Print Assumptions C50_wrap.
(** make_modifier makes a new modifier, except that with cache=True it is the same one as long as that exists. *)
Theorem C50_make_modifier : forall s n b s' m, reachable s -> make_modifier s n b = (s', m) ->
  mlive s' m = true /\ nth m (mnames s') ""%string = n /\ (b = false -> mlive s m = false) /\
  (b = true -> forall h, let now := orun (ostep s (OModifier n b)) h in mlive now m = true -> make_modifier now n true = (now, m)).
Proof. exact C50_make_modifier_pf. Qed.
Print Assumptions C50_make_modifier.
(** Modifiers A (cached) and B, classes C and D(C), A(D), B(D), B(A(D)), and a class E deriving from A(D). *)
Definition demo : list mop :=
  [OModifier "A" true; OModifier "B" false; OClass []; OClass [1%nat]; OApply 1 2; OApply 2 2; OApply 2 5; OClass [5%nat]; OModifier "A" true].
(** Classes: 0 object, 1 C, 2 D, 3 A(object), 4 A(C), 5 A(D), 6 B(object), 7 B(C), 8 B(D), 9 B(A(object)), 10 B(A(C)), 11 B(A(D)), 12 E. *)
Example C50_ex :
  let s := orun mst0 demo in
  reachable s /\ mlive s 1 = true /\ mlive s 2 = true /\ live s 2 = true /\ live s 5 = true /\
  k_mro (get_kls s 5) = [5; 2; 4; 1; 3; 0]%nat /\
  call s 1 2 = (s, Ok 5%nat) /\ call s 2 5 = (s, Ok 11%nat) /\ unwrap_modifier s 11 = Ok (2%nat, [1; 2]%nat) /\
  is_sub s 11 8 = true /\ k_bases (get_kls s 12) = [5%nat] /\ is_modified s 12 = false /\ subclasscheck s 1 12 = false /\
  snd (call s 1 12) = Raise ETypeError /\ snd (call s 2 12) = Ok 13%nat /\ snd (make_modifier s "A" true) = 1%nat.
Proof. split; [apply demo_reachable|]. vm_compute. repeat split. Qed.
