(** Inputs of programs: constants and fresh variables. *)
From Coq Require Import Lia ZifyBool.
From Verif Require Import PyBase BVModel BVFacts OpModel SMTTerm SMTModel SMTSpec SMTFacts SMTOps ProgModel ProgSpec.

Lemma no_simp_faithful : faithful no_simp.
Proof. split; [|split]; cbn; auto. Qed.

Lemma meaning_has e v t : sym_has v t -> conc_has (vmeaning e v) t.
Proof.
  destruct v, t; cbn; try contradiction; auto. intros [<- W]. split; auto. split; [now destruct W|]. now apply eval_range.
Qed.
Lemma meanings_has e vs ts : Forall2 sym_has vs ts -> Forall2 conc_has (map (vmeaning e) vs) ts.
Proof. induction 1; cbn; constructor; auto using meaning_has. Qed.

Lemma constants cs ts : Forall2 conc_has cs ts -> exists rs, Forall2 sym_has rs ts /\ forall e, map (vmeaning e) rs = cs.
Proof.
  induction 1 as [|c t cs ts H _ (rs & A & B)]; [exists []; auto|].
  destruct c; cbn in H; try contradiction; destruct t as [c|]; try contradiction.
  - exists (SBit (BConst b) :: rs). split; [constructor; cbn; auto|]. intros e. cbn. now rewrite B.
  - destruct H as (<- & H1 & H2). exists (SVec (SV (bcls x) (VConst (bval x) (csize (bcls x)))) :: rs). split.
    + constructor; auto. cbn. split; auto. split; [auto|]. cbn. split; [lia|reflexivity].
    + intros e. cbn. rewrite B. unfold meaning. cbn. destruct x; reflexivity.
Qed.

Lemma inputs_has names : forall ts, length names = length ts -> Forall sized_ty ts -> Forall2 sym_has (inputs names ts) ts.
Proof.
  induction names as [|s names IH]; intros [|t ts] L W; try discriminate; [constructor|].
  inv W. unfold inputs. cbn. constructor; [|apply IH; auto].
  destruct t as [c|]; cbn in *; auto. split; auto. split; [auto|]. cbn. split; [lia|reflexivity].
Qed.

(** An assignment that gives fresh variables the chosen values. *)
Fixpoint envof (names : list string) (cs : list pyval) : env :=
  match names, cs with
  | s :: names, c :: cs =>
      let e := envof names cs in
      Env (fun s' => if String.eqb s' s then match c with VBit b => b | _ => false end else ebool e s')
          (fun s' w => if String.eqb s' s then match c with VBV x => bval x | _ => 0 end else evec e s' w) (eint e)
  | _, _ => env0
  end.
Lemma assign names ts : forall cs, NoDup names -> length names = length ts -> Forall2 conc_has cs ts ->
  exists e, map (vmeaning e) (inputs names ts) = cs.
Proof.
  intros cs N L H. exists (envof names cs).
  assert (K : forall e s t c, conc_has c t -> (match t with TBit => ebool e s = match c with VBit b => b | _ => false end
    | TVec k => evec e s (csize k) = match c with VBV x => bval x | _ => 0 end end) -> vmeaning e (input s t) = c).
  { intros e s t c Hc E. destruct c, t; cbn in Hc; try contradiction; cbn [input vmeaning].
    - cbn. now rewrite E.
    - destruct Hc as (<- & H1 & H2). unfold meaning. cbn [scls sterm evalv]. rewrite E. destruct x; cbn in *. f_equal. f_equal.
      rewrite ?Z.mod_small; auto. }
  enough (G : forall n2 t2 c2 e, Forall2 conc_has c2 t2 -> length n2 = length t2 -> NoDup n2 ->
     (forall s, In s n2 -> ebool e s = ebool (envof n2 c2) s /\ forall w, evec e s w = evec (envof n2 c2) s w) ->
     map (vmeaning e) (inputs n2 t2) = c2) by (apply G; auto).
  clear names ts cs N L H. induction n2 as [|s n2 IH]; intros [|t t2] c2 e H L N Q; try discriminate; inv H; [reflexivity|].
  inv N. unfold inputs. cbn [combine map fst snd]. f_equal.
  - apply K; auto. destruct (Q s) as [Q1 Q2]; [now left|]. cbn [envof ebool evec] in Q1, Q2. rewrite String.eqb_refl in Q1.
    destruct t; [rewrite Q2, String.eqb_refl; auto|auto].
  - apply IH; auto. intros s' Hs. destruct (Q s') as [Q1 Q2]; [now right|]. cbn [envof ebool evec] in Q1, Q2.
    assert (String.eqb s' s = false) as E. { apply String.eqb_neq. intros ->. contradiction. }
    rewrite E in Q1. split; auto. intros w. rewrite Q2, E. reflexivity.
Qed.

Lemma sat_iff p names ts us i vs b : check ts p = Some us -> Forall sized_ty ts -> NoDup names -> length names = length ts ->
  (forall e, conc_run (map (vmeaning e) (inputs names ts)) p = Ok (map (vmeaning e) vs)) -> nth_error vs i = Some (SBit b) ->
  ((exists e, evalb e b = true) <->
   exists cs ws, Forall2 conc_has cs ts /\ conc_run cs p = Ok ws /\ nth_error ws i = Some (VBit true)).
Proof.
  intros H W N L B Ei. assert (T := inputs_has names ts L W). split.
  - intros (e & E). exists (map (vmeaning e) (inputs names ts)), (map (vmeaning e) vs). split; [now apply meanings_has|]. split; auto.
    rewrite (map_nth_error _ _ _ Ei). cbn. now rewrite E.
  - intros (cs & ws & C & R & En). destruct (assign names ts cs N L C) as (e & <-). rewrite B in R. inv R.
    rewrite (map_nth_error _ _ _ Ei) in En. cbn in En. exists e. congruence.
Qed.
