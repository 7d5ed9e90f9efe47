(** C63, C72: the symbolic floating-point types. Histories, terms and their meaning are in SMTFPModel.v and SMTFPSpec.v. *)
From Coq Require Import Lia.
From Verif Require Import PyBase BVModel FPModel SMTFPModel SMTFPSpec SMTFPFacts.
From Verif Require NameModel NameFacts.
Open Scope string_scope.
Open Scope Z_scope.
From Verif Require Import SFPProofs.

(** Two classes of 16 bits, after some unrelated variables. *)
Example history_ex :
  let st := frun (fun t => t) history in
  In c_half (fs_cls st) /\ In c_bf16 (fs_cls st) /\ of_class c_half (vx c_half) /\ length (fs_cls st) = 3%nat.
Proof. vm_compute. auto 20. Qed.

(** ** C63: the methods are well formed *)

(** After any history, every method of the interface except fp_min and fp_max, called with operands of the type,
    returns a floating-point value of the class, or a Bit. *)
Theorem C63_methods_partial : forall simp l c m k bit x args,
  faithful_simp simp -> In c (fs_cls (frun simp l)) -> In (m, k, bit) interface -> m <> "fp_min" -> m <> "fp_max" ->
  of_class c x -> length args = k -> Forall (fun a => exists y, a = FAFp y /\ of_class c y) args ->
  exists r, call_method simp (frun simp l) m x args = Ok r /\ returns c bit r.
Proof. exact C63_methods_partial_pf. Qed.
Print Assumptions C63_methods_partial.
Example C63_methods_ex :
  let st := frun (fun t => t) history in
  match call_method (fun t => t) st "fp_fma" (vx c_half) [FAFp (vy c_half); FAFp (vx c_half)],
        call_method (fun t => t) st "fp_leq" (vx c_half) [FAFp (vy c_half)] with
  | Ok (RFp z), Ok (RBit t) => sort_of (sf_term z) = Some (FBV 16) /\ sort_of t = Some FBool
  | _, _ => False
  end.
Proof. vm_compute. auto. Qed.

(** fp_min and fp_max are declared with one parameter and called with two: they raise for all operands. *)
Theorem C63_min_max_refuted : forall simp l c m x y,
  In c (fs_cls (frun simp l)) -> m = "fp_min" \/ m = "fp_max" -> of_class c x -> of_class c y ->
  call_method simp (frun simp l) m x [FAFp y] = Raise EValueError.
Proof. exact C63_min_max_refuted_pf. Qed.
Print Assumptions C63_min_max_refuted.

(** to_ubv gives a vector of the requested size, unless the program used the name of the function for a variable. *)
Theorem C63_to_ubv : forall simp l c x size,
  faithful_simp simp -> In c (fs_cls (frun simp l)) -> of_class c x -> 1 <= size ->
  (forall s, ~ In (OpVar (fc_name c ++ ".to_ubv[" ++ NameModel.dec (Z.to_nat size) ++ "]") s) l) ->
  exists t, snd (to_ubv simp (frun simp l) x size) = Ok (RVec size t) /\ sort_of t = Some (FBV size).
Proof. exact C63_to_ubv_pf. Qed.
Print Assumptions C63_to_ubv.
Example C63_to_ubv_ex : (* a second class can take the name of a collected one *)
  let l := (history ++ [OpCollect 0; OpClass (bound_name "SMTFPVector" half) (Some half) []])%list in
  let c := FC 3 (bound_name "SMTFPVector" half) half [3%nat] in
  In c (fs_cls (frun (fun t => t) l)) /\
  match to_ubv (fun t => t) (frun (fun t => t) l) (vx c) 8 with (_, Ok (RVec 8 t)) => sort_of t = Some (FBV 8) | _ => False end.
Proof. split; vm_compute; auto. Qed.

(** to_sbv looks its functions up under a misspelt key. *)
Theorem C63_to_sbv_refuted : forall simp l c x size,
  In c (fs_cls (frun simp l)) -> of_class c x -> snd (to_sbv (frun simp l) x size) = Raise EKeyError.
Proof. exact C63_to_sbv_refuted_pf. Qed.
Print Assumptions C63_to_sbv_refuted.

(** reinterpret_as_bv and reinterpret_from_bv keep the bits. *)
Theorem C63_reinterpret : forall simp c x,
  faithful_simp simp -> of_class c x ->
  exists t y, as_bv simp x = Ok (RVec (fc_size c) t) /\ sort_of t = Some (FBV (fc_size c)) /\
    from_bv c (FAVal t) = Ok y /\ of_class c y /\
    forall J, eval J t = eval J (sf_term x) /\ eval J (sf_term y) = eval J (sf_term x).
Proof. exact C63_reinterpret_pf. Qed.
Print Assumptions C63_reinterpret.
(** Vectors of another size are rejected, and integers must fit the size (negative ones are rejected too). *)
Theorem C63_construct : forall c,
  (forall t n, sort_of t = Some (FBV n) -> n <> fc_size c -> from_bv c (FAVal t) = Raise ETypeError) /\
  (forall z, 0 <= z < 2 ^ fc_size c -> exists x, sfp_init c (FVInt z) = Ok x /\ of_class c x /\ forall J, eval J (sf_term x) = z) /\
  (forall z, z < 0 \/ 2 ^ fc_size c <= z -> sfp_init c (FVInt z) = Raise EValueError).
Proof. exact C63_construct_pf. Qed.
Print Assumptions C63_construct.
Example C63_construct_ex :
  of_class c_half (vx c_half) /\ (exists x, sfp_init c_half (FVInt 0x3C00) = Ok x)
  /\ sfp_init c_half (FVInt (-1)) = Raise EValueError /\ from_bv c_half (FAVal (TVar "z" (FBV 8))) = Raise ETypeError.
Proof. repeat split. eexists. reflexivity. Qed.

(** Operands: any object with a _value of the right sort passes, so values of a different format of the same size are
    mixed silently (FPVector raises TypeError, C70_operands). Operands of another size are rejected. *)
Theorem C63_mixed_refuted : exists l c c' x y r,
  In c (fs_cls (frun (fun t => t) l)) /\ In c' (fs_cls (frun (fun t => t) l)) /\ fc_fmt c <> fc_fmt c' /\
  of_class c x /\ of_class c' y /\ call_method (fun t => t) (frun (fun t => t) l) "fp_add" x [FAFp y] = Ok r.
Proof. exact C63_mixed_refuted_pf. Qed.
Print Assumptions C63_mixed_refuted.
Theorem C63_other_size : forall simp l c m x y c',
  In c (fs_cls (frun simp l)) -> of_class c x -> of_class c' y -> fc_size c' <> fc_size c -> In (m, 1%nat) (map fst interface) ->
  m <> "fp_min" -> m <> "fp_max" ->
  call_method simp (frun simp l) m x [FAFp y] = Raise ETypeError.
Proof. exact C63_other_size_pf. Qed.
Print Assumptions C63_other_size.
Example C63_other_size_ex :
  call_method (fun t => t) (frun (fun t => t) history) "fp_add" (vx c_half)
    [FAFp (SFP (FC 9 "F" (Fmt 4 3 RNE true) [9%nat]) (TVar "z" (FBV 8)))] = Raise ETypeError.
Proof. vm_compute. reflexivity. Qed.

(** An operand without a symbolic value, such as a number, is not converted: every method raises AttributeError. *)
Theorem C63_number : forall simp l m k bit x args,
  In (m, k, bit) interface -> length args = k -> In FAOther args ->
  call_method simp (frun simp l) m x args = Raise EAttributeError.
Proof. exact C63_number_pf. Qed.
Print Assumptions C63_number.
Example C63_number_ex : In ("fp_fma", 2%nat, false) interface /\
  call_method (fun t => t) (frun (fun t => t) history) "fp_fma" (vx c_half) [FAFp (vy c_half); FAOther] = Raise EAttributeError.
Proof. split; [unfold interface; cbn; tauto|vm_compute; reflexivity]. Qed.
(** The wrong number of operands raises TypeError, and a method that is not in the interface does not exist. *)
Theorem C63_arity : forall simp l m x args,
  (forall k bit, In (m, k, bit) interface -> length args <> k -> call_method simp (frun simp l) m x args = Raise ETypeError) /\
  (~ In m (map (fun p => fst (fst p)) interface) -> call_method simp (frun simp l) m x args = Raise EAttributeError).
Proof. exact C63_arity_pf. Qed.
Print Assumptions C63_arity.
Example C63_arity_ex : call_method (fun t => t) (frun (fun t => t) history) "fp_fma" (vx c_half) [FAFp (vy c_half)] = Raise ETypeError /\
  ~ In "fp_pow" (map (fun p => fst (fst p)) interface) /\
  call_method (fun t => t) (frun (fun t => t) history) "fp_pow" (vx c_half) [FAFp (vy c_half)] = Raise EAttributeError.
Proof. split; [vm_compute; reflexivity|]. split; [cbn; intuition discriminate|vm_compute; reflexivity]. Qed.
(** A class statement on the unbound type fails, whatever its name. *)
Theorem C63_unbound_refuted : forall simp l name,
  snd (new_class (frun simp l) name None []) = Raise EAttributeError.
Proof. exact C63_unbound_refuted_pf. Qed.
Print Assumptions C63_unbound_refuted.
(** A subclass has the binding of its bases; bases of different formats are rejected. *)
Theorem C63_binding : forall simp l name i c,
  find_cls (fs_cls (frun simp l)) i = Some c ->
  (forall st' j, new_class (frun simp l) name None [i] = (st', Ok j) ->
     exists d, find_cls (fs_cls st') j = Some d /\ fc_fmt d = fc_fmt c /\ fc_name d = name) /\
  (forall k d, find_cls (fs_cls (frun simp l)) k = Some d -> fc_fmt d <> fc_fmt c ->
     snd (new_class (frun simp l) name None [i; k]) = Raise ETypeError).
Proof. exact C63_binding_pf. Qed.
Print Assumptions C63_binding.
Example C63_binding_ex :
  let st := frun (fun t => t) history in
  find_cls (fs_cls st) 0 = Some c_half /\ find_cls (fs_cls st) 1 = Some c_bf16
  /\ (exists st', new_class st "B" None [0%nat] = (st', Ok 3%nat)) /\ snd (new_class st "B" None [0%nat; 1%nat]) = Raise ETypeError.
Proof.
  split; [vm_compute; reflexivity|]. split; [vm_compute; reflexivity|]. split; [|vm_compute; reflexivity].
  eexists. vm_compute. reflexivity.
Qed.

(** ** C72: the methods are functions *)

(** The value of a result depends only on the values of the operands: equal operands give equal results, under every
    interpretation, across all instances of the class. *)
Theorem C72_function : forall simp l c m x x' args args' ts ts' r r' J,
  faithful_simp simp -> In c (fs_cls (frun simp l)) -> sf_cls x = c -> sf_cls x' = c ->
  call_method simp (frun simp l) m x args = Ok r -> call_method simp (frun simp l) m x' args' = Ok r' ->
  mapM arg_value args = Ok ts -> mapM arg_value args' = Ok ts' ->
  map (eval J) (sf_term x :: ts) = map (eval J) (sf_term x' :: ts') ->
  eval J (res_term r) = eval J (res_term r').
Proof. exact C72_function_pf. Qed.
Print Assumptions C72_function.
(** Different methods, and classes of different names, are unrelated: any choice of functions F for them is realised
    by one interpretation, for all calls at once, and for any values of the variables. *)
Theorem C72_independent : forall simp l (F : string -> string -> list Z -> Z) (V : string -> Z),
  faithful_simp simp ->
  exists J, iv J = V /\
    forall c m k bit x args ts r, In c (fs_cls (frun simp l)) -> In (m, k, bit) interface -> sf_cls x = c ->
      call_method simp (frun simp l) m x args = Ok r -> mapM arg_value args = Ok ts ->
      eval J (res_term r) =
        norm (if bit then FBool else FBV (fc_size c)) (F (fc_name c) m (map (eval J) (sf_term x :: ts))).
Proof. exact C72_independent_pf. Qed.
Print Assumptions C72_independent.
(** The classes made by indexing have different names for different formats. *)
Theorem C72_names : forall k f g,
  fmt_ok f = true -> fmt_ok g = true -> bound_name k f = bound_name k g -> f = g.
Proof. exact C72_names_pf. Qed.
Print Assumptions C72_names.
Example C72_ex :
  bound_name "SMTFPVector" half = "SMTFPVector[5,10,RoundingMode.RNE,True]"
  /\ faithful_simp (fun t => t) /\ In ("fp_add", 1%nat, false) interface
  /\ exists r, call_method (fun t => t) (frun (fun t => t) history) "fp_add" (vx c_half) [FAFp (vy c_half)] = Ok r.
Proof.
  split; [vm_compute; reflexivity|]. split; [intros t s H; auto|]. split; [unfold interface; cbn [In]; auto 12|].
  eexists. vm_compute. reflexivity.
Qed.

(** The operators are the methods; != is the complement of ==. *)
Theorem C72_operators : forall simp l c x y,
  faithful_simp simp -> In c (fs_cls (frun simp l)) -> of_class c x -> of_class c y ->
  (forall o m, In (o, m) [("__neg__", "fp_neg"); ("__abs__", "fp_abs")] ->
     call_operator simp (frun simp l) o x [] = call_method simp (frun simp l) m x []) /\
  (forall o m, In (o, m) [("__add__", "fp_add"); ("__sub__", "fp_sub"); ("__mul__", "fp_mul"); ("__truediv__", "fp_div");
      ("__mod__", "fp_rem"); ("__eq__", "fp_eq"); ("__ge__", "fp_geq"); ("__gt__", "fp_gt"); ("__le__", "fp_leq"); ("__lt__", "fp_lt")] ->
     call_operator simp (frun simp l) o x [FAFp y] = call_method simp (frun simp l) m x [FAFp y]) /\
  exists e n, call_method simp (frun simp l) "fp_eq" x [FAFp y] = Ok (RBit e) /\ call_ne simp (frun simp l) x (FAFp y) = Ok (RBit n) /\
    forall J, eval J n = 1 - eval J e.
Proof. exact C72_operators_pf. Qed.
Print Assumptions C72_operators.
