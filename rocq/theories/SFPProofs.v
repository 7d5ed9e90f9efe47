(** Proofs of the theorems stated in SFPProps.v. *)
From Coq Require Import Lia.
From Verif Require Import PyBase BVModel FPModel SMTFPModel SMTFPSpec SMTFPFacts.
From Verif Require NameModel NameFacts.
Open Scope string_scope.
Open Scope Z_scope.

Definition half := Fmt 5 10 RNE true.
Definition bf16 := Fmt 8 7 RNE true.
Definition history : list fop :=
  [OpVar "x" (FBV 16); OpClass (bound_name "SMTFPVector" half) (Some half) [];
   OpClass (bound_name "SMTFPVector" bf16) (Some bf16) []; OpClass "MyHalf" None [0%nat]; OpVar "y" (FBV 16);
   OpClass "Fails" None []; OpUbv 0 (TVar "x" (FBV 16)) 8].
Definition c_half := FC 0 (bound_name "SMTFPVector" half) half [0%nat].
Definition c_bf16 := FC 1 (bound_name "SMTFPVector" bf16) bf16 [1%nat].
Definition vx (c : fcls) : sfp := SFP c (TVar "x" (FBV 16)).
Definition vy (c : fcls) : sfp := SFP c (TVar "y" (FBV 16)).

Lemma C63_methods_partial_pf : forall simp l c m k bit x args,
  faithful_simp simp -> In c (fs_cls (frun simp l)) -> In (m, k, bit) interface -> m <> "fp_min" -> m <> "fp_max" ->
  of_class c x -> length args = k -> Forall (fun a => exists y, a = FAFp y /\ of_class c y) args ->
  exists r, call_method simp (frun simp l) m x args = Ok r /\ returns c bit r.
Proof.
  intros simp l c m k bit x args FS HC HI N1 N2 [X S] L HA. pose proof (inv_run simp l) as I.
  destruct (arg_terms c args HA) as (ts & M & LT & F).
  assert (FX : Forall (fun t => sort_of t = Some (FBV (fc_size c))) (sf_term x :: ts)) by now constructor.
  assert (KEY : assoc_str methods m = Some (k, bit) /\ exists sg, In (m, sg) sigs /\
    sig_type (fc_size c) sg = (repeat (FBV (fc_size c)) (Datatypes.S k), if bit then FBool else FBV (fc_size c))).
  { clear - HI N1 N2. unfold interface in HI. cbn [In] in HI.
    repeat destruct HI as [HI|HI]; try contradiction; injection HI as <- <- <-; try congruence;
      (split; [reflexivity|]); eexists; (split; [unfold sigs; cbn [In]; repeat (first [left; reflexivity|right])|reflexivity]). }
  destruct KEY as (KM & sg & HS & TY). unfold call_method. rewrite KM, L, Nat.eqb_refl. cbn [negb]. rewrite M. cbn [bind].
  rewrite X. unfold bit_method, fp_method. rewrite (find_uf_spec _ _ c m sg I HC HS). cbn [bind].
  destruct (fcall_ok ((uf_name (fc_name c) m, sig_type (fc_size c) sg) : fsym)
    (FBV (fc_size c)) (sf_term x :: ts) (Datatypes.S k)) as [C1 C2]; [cbn [fst snd]; now rewrite TY|cbn [length]; congruence|exact FX|].
  cbn [snd] in C2. replace (snd (sig_type (fc_size c) sg)) with (if bit then FBool else FBV (fc_size c)) in C2 by (rewrite TY; reflexivity).
  rewrite C1. cbn [bind]. destruct bit.
  - unfold smt_bit. rewrite C2. cbn [rmap]. eexists. split; [reflexivity|]. eexists. split; [reflexivity|]. now apply FS.
  - unfold sfp_init. rewrite C2, Z.eqb_refl. cbn [rmap]. eexists. split; [reflexivity|]. eexists. split; [reflexivity|]. split; [reflexivity|exact C2].
Qed.

Lemma C63_min_max_refuted_pf : forall simp l c m x y,
  In c (fs_cls (frun simp l)) -> m = "fp_min" \/ m = "fp_max" -> of_class c x -> of_class c y ->
  call_method simp (frun simp l) m x [FAFp y] = Raise EValueError.
Proof.
  intros simp l c m x y HC HM [X S] [Y S']. pose proof (inv_run simp l) as I. unfold call_method.
  assert (HS : In (m, [None; None]) sigs) by (destruct HM as [-> | ->]; unfold sigs; cbn [In]; auto 20).
  assert (KM : assoc_str methods m = Some (1%nat, false)) by (destruct HM as [-> | ->]; reflexivity).
  rewrite KM. cbn [length Nat.eqb negb mapM arg_value bind]. unfold fp_method. rewrite X, (find_uf_spec _ _ c m _ I HC HS). reflexivity.
Qed.

Lemma C63_to_ubv_pf : forall simp l c x size,
  faithful_simp simp -> In c (fs_cls (frun simp l)) -> of_class c x -> 1 <= size ->
  (forall s, ~ In (OpVar (fc_name c ++ ".to_ubv[" ++ NameModel.dec (Z.to_nat size) ++ "]") s) l) ->
  exists t, snd (to_ubv simp (frun simp l) x size) = Ok (RVec size t) /\ sort_of t = Some (FBV size).
Proof.
  intros simp l c x size FS HC [X S] HSZ HV. pose proof (inv_run simp l) as I. set (vars := rev (flat_map op_vars l)) in *.
  set (st := frun simp l) in *. unfold to_ubv. rewrite X. replace (size <? 1) with false by (symmetry; apply Z.ltb_ge; lia).
  change (fc_name c ++ "." ++ "to_ubv[" ++ NameModel.dec (Z.to_nat size) ++ "]") with (uf_name (fc_name c) (ubv_method size)).
  change (fc_name c ++ ".to_ubv[" ++ NameModel.dec (Z.to_nat size) ++ "]") with (uf_name (fc_name c) (ubv_method size)) in HV.
  set (f := (uf_name (fc_name c) (ubv_method size), ([FBV (fc_size c)], FBV size)) : fsym).
  assert (FIN : exists t, (t <- fcall f [sf_term x] ;; rmap (RVec size) (smt_vec simp size t)) = Ok (RVec size t) /\ sort_of t = Some (FBV size)).
  { destruct (fcall_ok f (FBV (fc_size c)) [sf_term x] 1) as [C1 C2]; [reflexivity|reflexivity|now constructor|].
    rewrite C1. cbn [bind]. unfold smt_vec. rewrite C2. cbn [snd f]. rewrite Z.eqb_refl. cbn [rmap]. eexists. split; [reflexivity|]. now apply FS. }
  destruct (assoc_size (fs_ubv st) (fc_id c) size) as [g|] eqn:A.
  - apply assoc_size_in in A. rewrite (i_ubv _ _ I c _ _ g HC A eq_refl). exact FIN.
  - destruct (Symbol (fs_syms st) _ _) as [syms r] eqn:E. destruct (Symbol_spec _ _ _ _ _ E) as (_ & _ & [[-> _]|[-> (u & FU & NE)]]); [exact FIN|].
    exfalso. destruct (i_old _ _ I (fc_name c) size u FU ltac:(lia)) as (sz & -> & FA).
    + unfold vars. rewrite run_vars. intros [s H]. now apply (HV s).
    + pose proof (i_sym _ _ I c "fp_abs" _ HC abs_sig) as FB. rewrite FA in FB. cbn in FB. injection FB as ->. now apply NE.
Qed.

Lemma C63_to_sbv_refuted_pf : forall simp l c x size,
  In c (fs_cls (frun simp l)) -> of_class c x -> snd (to_sbv (frun simp l) x size) = Raise EKeyError.
Proof.
  intros simp l c x size HC [X S]. pose proof (inv_run simp l) as I. unfold to_sbv. cbn [snd]. unfold find_uf.
  rewrite X, (i_ufs _ _ I c HC). reflexivity.
Qed.

Lemma C63_reinterpret_pf : forall simp c x,
  faithful_simp simp -> of_class c x ->
  exists t y, as_bv simp x = Ok (RVec (fc_size c) t) /\ sort_of t = Some (FBV (fc_size c)) /\
    from_bv c (FAVal t) = Ok y /\ of_class c y /\
    forall J, eval J t = eval J (sf_term x) /\ eval J (sf_term y) = eval J (sf_term x).
Proof.
  intros simp c x FS [X S]. unfold as_bv. rewrite X. unfold smt_vec. rewrite S, Z.eqb_refl. cbn [rmap].
  destruct (FS _ _ S) as [S2 E2]. exists (simp (sf_term x)), (SFP c (simp (sf_term x))).
  split; [reflexivity|]. split; [exact S2|]. unfold from_bv. cbn [arg_value bind sfp_init]. rewrite S2, Z.eqb_refl.
  split; [reflexivity|]. split; [split; [reflexivity|exact S2]|]. intros J. cbn [sf_term]. auto.
Qed.

Lemma C63_construct_pf : forall c,
  (forall t n, sort_of t = Some (FBV n) -> n <> fc_size c -> from_bv c (FAVal t) = Raise ETypeError) /\
  (forall z, 0 <= z < 2 ^ fc_size c -> exists x, sfp_init c (FVInt z) = Ok x /\ of_class c x /\ forall J, eval J (sf_term x) = z) /\
  (forall z, z < 0 \/ 2 ^ fc_size c <= z -> sfp_init c (FVInt z) = Raise EValueError).
Proof.
  intros c. split; [|split].
  - intros t n S N. unfold from_bv. cbn [arg_value bind sfp_init]. rewrite S. destruct (Z.eqb_spec n (fc_size c)); [contradiction|reflexivity].
  - intros z Hz. assert (B : ((0 <=? z) && (z <? 2 ^ fc_size c))%bool = true) by (apply andb_true_iff; split; [apply Z.leb_le|apply Z.ltb_lt]; lia).
    cbn [sfp_init]. rewrite B. eexists. split; [reflexivity|]. split; [|reflexivity].
    split; [reflexivity|]. cbn [sf_term sort_of]. now rewrite B.
  - intros z Hz. cbn [sfp_init]. replace ((0 <=? z) && (z <? 2 ^ fc_size c))%bool with false; [reflexivity|].
    symmetry. apply andb_false_iff. destruct Hz; [left; apply Z.leb_gt|right; apply Z.ltb_ge]; lia.
Qed.

Lemma C63_mixed_refuted_pf : exists l c c' x y r,
  In c (fs_cls (frun (fun t => t) l)) /\ In c' (fs_cls (frun (fun t => t) l)) /\ fc_fmt c <> fc_fmt c' /\
  of_class c x /\ of_class c' y /\ call_method (fun t => t) (frun (fun t => t) l) "fp_add" x [FAFp y] = Ok r.
Proof.
  exists history, c_half, c_bf16, (vx c_half), (vy c_bf16). eexists.
  split; [vm_compute; auto|]. split; [vm_compute; auto|]. split; [discriminate|]. split; [split; reflexivity|].
  split; [split; reflexivity|]. vm_compute. reflexivity.
Qed.

Lemma C63_other_size_pf : forall simp l c m x y c',
  In c (fs_cls (frun simp l)) -> of_class c x -> of_class c' y -> fc_size c' <> fc_size c -> In (m, 1%nat) (map fst interface) ->
  m <> "fp_min" -> m <> "fp_max" ->
  call_method simp (frun simp l) m x [FAFp y] = Raise ETypeError.
Proof.
  intros simp l c m x y c' HC [X S] [Y S'] NE HI N1 N2. pose proof (inv_run simp l) as I.
  assert (KEY : exists bit, assoc_str methods m = Some (1%nat, bit) /\ exists sg, In (m, sg) sigs /\
    fst (sig_type (fc_size c) sg) = [FBV (fc_size c); FBV (fc_size c)]).
  { clear - HI N1 N2. unfold interface in HI. cbn [map fst In] in HI.
    repeat destruct HI as [HI|HI]; try contradiction; try discriminate HI; injection HI as <-; try congruence;
      eexists; (split; [reflexivity|]); eexists; (split; [unfold sigs; cbn [In]; repeat (first [left; reflexivity|right])|reflexivity]). }
  destruct KEY as (bit & KM & sg & HS & TY). unfold call_method. rewrite KM. cbn [length Nat.eqb negb mapM arg_value bind].
  unfold bit_method, fp_method. rewrite X, (find_uf_spec _ _ c m sg I HC HS). cbn [bind].
  assert (FC : fcall (uf_name (fc_name c) m, sig_type (fc_size c) sg) [sf_term x; sf_term y] = Raise ETypeError).
  { unfold fcall. cbn [sort_of snd]. rewrite TY. cbn [length Nat.eqb negb map sorts_match]. rewrite S, S'. cbn [fsort_eqb].
    rewrite Z.eqb_refl. destruct (Z.eqb_spec (fc_size c) (fc_size c')); [congruence|reflexivity]. }
  rewrite FC. destruct bit; reflexivity.
Qed.

Lemma C63_number_pf : forall simp l m k bit x args,
  In (m, k, bit) interface -> length args = k -> In FAOther args ->
  call_method simp (frun simp l) m x args = Raise EAttributeError.
Proof.
  intros simp l m k bit x args M L A.
  assert (F : assoc_str methods m = Some (k, bit)).
  { cbn [interface In] in M. repeat destruct M as [M|M]; try contradiction; injection M as <- <- <-; reflexivity. }
  assert (R : mapM arg_value args = Raise EAttributeError).
  { clear L. induction args as [|a args IH]; [destruct A|]. cbn [mapM]. destruct A as [->|A]; [reflexivity|].
    rewrite (IH A). destruct a; reflexivity. }
  unfold call_method. rewrite F, L, Nat.eqb_refl, R. reflexivity.
Qed.

Lemma C63_arity_pf : forall simp l m x args,
  (forall k bit, In (m, k, bit) interface -> length args <> k -> call_method simp (frun simp l) m x args = Raise ETypeError) /\
  (~ In m (map (fun p => fst (fst p)) interface) -> call_method simp (frun simp l) m x args = Raise EAttributeError).
Proof.
  intros simp l m x args. split.
  - intros k bit M L. assert (F : assoc_str methods m = Some (k, bit)).
    { cbn [interface In] in M. repeat destruct M as [M|M]; try contradiction; injection M as <- <- <-; reflexivity. }
    unfold call_method. rewrite F. apply Nat.eqb_neq in L. rewrite L. reflexivity.
  - intros N. unfold call_method. destruct (assoc_str methods m) as [[k b]|] eqn:F; [|reflexivity]. exfalso. apply N. clear N.
    cbn [map interface In fst]. unfold methods in F. cbn [assoc_str] in F.
    repeat match type of F with (if String.eqb ?a ?b then _ else _) = _ => destruct (String.eqb_spec a b) as [E|_]; [subst; tauto|] end. discriminate.
Qed.

Lemma C63_unbound_refuted_pf : forall simp l name,
  snd (new_class (frun simp l) name None []) = Raise EAttributeError.
Proof. reflexivity. Qed.

Lemma C63_binding_pf : forall simp l name i c,
  find_cls (fs_cls (frun simp l)) i = Some c ->
  (forall st' j, new_class (frun simp l) name None [i] = (st', Ok j) ->
     exists d, find_cls (fs_cls st') j = Some d /\ fc_fmt d = fc_fmt c /\ fc_name d = name) /\
  (forall k d, find_cls (fs_cls (frun simp l)) k = Some d -> fc_fmt d <> fc_fmt c ->
     snd (new_class (frun simp l) name None [i; k]) = Raise ETypeError).
Proof.
  intros simp l name i c HF. split.
  - intros st' j. unfold new_class. cbn [flat_map]. rewrite HF. cbn [app map new_binding].
    destruct (make_ufs _ _ _ _) as [syms [ufs|e]]; [|discriminate]. intros E. injection E as <- <-. cbn [fs_cls find_cls fc_id].
    rewrite Nat.eqb_refl. eexists. split; [reflexivity|]. auto.
  - intros k d HD NE. unfold new_class. cbn [flat_map]. rewrite HF, HD. cbn [app map new_binding].
    destruct (fmt_eqb (fc_fmt c) (fc_fmt d)) eqn:E; [|reflexivity]. exfalso. apply NE.
    destruct (fc_fmt c) as [e m r b], (fc_fmt d) as [e' m' r' b']. unfold fmt_eqb in E. cbn [f_eb f_mb f_mode f_ieee] in E.
    apply andb_true_iff in E as [E E4]. apply andb_true_iff in E as [E E3]. apply andb_true_iff in E as [E1 E2].
    apply Z.eqb_eq in E1, E2. apply Bool.eqb_prop in E4. subst. destruct r, r'; try discriminate; reflexivity.
Qed.

Lemma C72_function_pf : forall simp l c m x x' args args' ts ts' r r' J,
  faithful_simp simp -> In c (fs_cls (frun simp l)) -> sf_cls x = c -> sf_cls x' = c ->
  call_method simp (frun simp l) m x args = Ok r -> call_method simp (frun simp l) m x' args' = Ok r' ->
  mapM arg_value args = Ok ts -> mapM arg_value args' = Ok ts' ->
  map (eval J) (sf_term x :: ts) = map (eval J) (sf_term x' :: ts') ->
  eval J (res_term r) = eval J (res_term r').
Proof.
  intros simp l c m x x' args args' ts ts' r r' J FS HC X X' C C' M M' E. pose proof (inv_run simp l) as I.
  destruct (call_inv _ _ _ c m x args r FS I HC X C) as (k & bit & us & A & B & D).
  destruct (call_inv _ _ _ c m x' args' r' FS I HC X' C') as (k' & bit' & us' & A' & B' & D').
  rewrite M in B. injection B as <-. rewrite M' in B'. injection B' as <-. rewrite A in A'. injection A' as <- <-.
  rewrite D, D', E. reflexivity.
Qed.

Lemma C72_independent_pf : forall simp l (F : string -> string -> list Z -> Z) (V : string -> Z),
  faithful_simp simp ->
  exists J, iv J = V /\
    forall c m k bit x args ts r, In c (fs_cls (frun simp l)) -> In (m, k, bit) interface -> sf_cls x = c ->
      call_method simp (frun simp l) m x args = Ok r -> mapM arg_value args = Ok ts ->
      eval J (res_term r) =
        norm (if bit then FBool else FBV (fc_size c)) (F (fc_name c) m (map (eval J) (sf_term x :: ts))).
Proof.
  intros simp l F V FS. pose proof (inv_run simp l) as I.
  exists (Interp V (fun n => match split_dot n with Some (c, m) => F c m | None => fun _ => 0 end)).
  split; [reflexivity|]. intros c m k bit x args ts r HC HI X C M.
  destruct (call_inv _ _ _ c m x args r FS I HC X C) as (k' & bit' & us & A & B & D). rewrite M in B. injection B as <-.
  assert (ND : no_dot m = true /\ assoc_str methods m = Some (k, bit)).
  { clear - HI. unfold interface in HI. cbn [In] in HI. repeat destruct HI as [HI|HI]; try contradiction; injection HI as <- <- <-; split; reflexivity. }
  destruct ND as [ND A2]. rewrite A in A2. injection A2 as <- <-. rewrite D. cbn [ifn]. rewrite split_uf by exact ND. reflexivity.
Qed.

Lemma C72_names_pf : forall k f g,
  fmt_ok f = true -> fmt_ok g = true -> bound_name k f = bound_name k g -> f = g.
Proof.
  intros k [e m r b] [e' m' r' b'] O O' E. unfold fmt_ok in O, O'. cbn [f_eb f_mb] in O, O'.
  apply negb_true_iff, orb_false_iff in O as [O1 O2], O' as [O1' O2']. apply Z.leb_gt in O1, O2, O1', O2'.
  unfold bound_name in E. apply app_inv_s in E. cbn [f_eb f_mb f_mode f_ieee append] in E. injection E as E.
  apply cut_inj in E as [E1 E]; try (apply digits_lack; [apply dec_digits|reflexivity]).
  apply cut_inj in E as [E2 E]; try (apply digits_lack; [apply dec_digits|reflexivity]).
  apply NameFacts.dec_inj in E1, E2. assert (e = e') by lia. assert (m = m') by lia. subst e' m'.
  destruct r, r'; cbn in E; try discriminate E; destruct b, b'; try discriminate E; reflexivity.
Qed.

Lemma C72_operators_pf : forall simp l c x y,
  faithful_simp simp -> In c (fs_cls (frun simp l)) -> of_class c x -> of_class c y ->
  (forall o m, In (o, m) [("__neg__", "fp_neg"); ("__abs__", "fp_abs")] ->
     call_operator simp (frun simp l) o x [] = call_method simp (frun simp l) m x []) /\
  (forall o m, In (o, m) [("__add__", "fp_add"); ("__sub__", "fp_sub"); ("__mul__", "fp_mul"); ("__truediv__", "fp_div");
      ("__mod__", "fp_rem"); ("__eq__", "fp_eq"); ("__ge__", "fp_geq"); ("__gt__", "fp_gt"); ("__le__", "fp_leq"); ("__lt__", "fp_lt")] ->
     call_operator simp (frun simp l) o x [FAFp y] = call_method simp (frun simp l) m x [FAFp y]) /\
  exists e n, call_method simp (frun simp l) "fp_eq" x [FAFp y] = Ok (RBit e) /\ call_ne simp (frun simp l) x (FAFp y) = Ok (RBit n) /\
    forall J, eval J n = 1 - eval J e.
Proof.
  intros simp l c x y FS HC HX HY. split; [|split].
  - intros o m H. cbn [In] in H. repeat destruct H as [H|H]; try contradiction; injection H as <- <-; reflexivity.
  - intros o m H. cbn [In] in H. repeat destruct H as [H|H]; try contradiction; injection H as <- <-; reflexivity.
  - destruct (C63_methods_partial_pf simp l c "fp_eq" 1 true x [FAFp y] FS HC) as (r & C & R); auto; try discriminate.
    + unfold interface. cbn [In]. auto 20.
    + constructor; [exists y; auto|constructor].
    + destruct R as (t & -> & S). assert (SN : sort_of (TNot t) = Some FBool) by (cbn [sort_of]; now rewrite S).
      exists t, (simp (TNot t)). split; [exact C|]. unfold call_ne. rewrite C. cbn [bind]. unfold smt_bit. rewrite SN. split; [reflexivity|].
      intros J. rewrite (proj2 (FS _ _ SN) J). reflexivity.
Qed.
