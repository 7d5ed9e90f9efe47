(** C113. Vectors of derived classes: programs over Word[n] (class Word(UIntVector): pass), class Byte(BitVector[8]): pass and
    M(T), against the same programs over the built-in classes. *)
From Coq Require Import Lia.
From Verif Require Import PyBase BVModel BVSpec OpModel SMTSpec ProgModel MetaModel MetaSpec MetaFacts DerivModel DerivSpec DerivFacts.
From Verif Require Import DerivProofs.

(** A family of sized classes: every vector of the program is u[n] for one class u derived from BitVector. *)
Theorem C113_program : forall h u rs p,
  let s := mrun (builtin ++ h) in
  is_bv s u -> unsized s u -> mixins_last s u -> below_BitVector s u ->
  Forall (object s) rs -> (forall c, In c (start_classes rs p) -> sized_of s u c) ->
  rmap (fun r => map (plain (fst r)) (snd r)) (drun s rs p) = conc_run (map (plain s) rs) (map (plain_call s) p)
  /\ forall s' vs, drun s rs p = Ok (s', vs) -> forall x, In (UVec x) vs -> sized_of s' u (vcls x) /\ object s' (UVec x).
Proof. exact C113_program_pf. Qed.
Print Assumptions C113_program.
(** class Mix: pass; class K(SIntVector, Mix): pass; 12 is K[8] and 17 is K[4]. *)
Example C113_program_ex :
  let h := [MClass []; MClass [5; 6]; MIndex 7 (XInt 8); MIndex 7 (XInt 4)]%nat in
  let s := mrun (builtin ++ h) in
  let rs := [UVec (VObj 12 200); UVec (VObj 12 100); UVec (VObj 17 3)] in
  let p := [DOp OAdd 0 (Reg 1); DSlice 3 (Some 0) (Some 4); DConcat 4 2; DSext 2 3; DCmp CLt 0 (Num 9); DAdc 0 (Reg 1) (Num 1); DOp OShr 0 (Num 2);
            DConv 17 0] in
  is_bv s 7 /\ unsized s 7 /\ mixins_last s 7 /\ below_BitVector s 7 /\ Forall (object s) rs
  /\ (forall c, In c (start_classes rs p) -> sized_of s 7 c)
  /\ rmap (fun r => map (fun v => match v with UVec x => (c_unsized (get_cls (fst r) (vcls x)), c_size (get_cls (fst r) (vcls x)), vval x)
       | UBit q => (None, None, b2z q) | UInt _ => (None, None, 7) end) (snd r)) (drun s rs p) =
     Ok [(Some 7%nat, Some 8, 200); (Some 7%nat, Some 8, 100); (Some 7%nat, Some 4, 3); (Some 7%nat, Some 8, 44); (Some 7%nat, Some 4, 12); (Some 7%nat, Some 8, 60);
         (Some 7%nat, Some 7, 3); (None, None, 1); (Some 7%nat, Some 8, 45); (None, None, 1); (Some 7%nat, Some 8, 242); (Some 7%nat, Some 4, 8)].
Proof.
  cbv zeta. split; [split; vm_compute; reflexivity|]. split; [vm_compute; reflexivity|]. split.
  - intros x Hx Hb. apply (mro_sub _ (mrun_minv _)) in Hx; [|unfold len; vm_compute; lia].
    match type of Hx with In _ ?l => assert (E : l = [7; 5; 3; 2; 1; 6; 0]%nat) by (vm_compute; reflexivity) end. rewrite E in Hx.
    match type of Hb with c_bv (get_cls ?s _) = _ => set (S0 := s) in * end.
    assert (B6 : c_bv (get_cls S0 6%nat) = false) by (vm_compute; reflexivity).
    assert (B0 : c_bv (get_cls S0 0%nat) = false) by (vm_compute; reflexivity).
    destruct Hx as [<-|[<-|[<-|[<-|[<-|[<-|[<-|[]]]]]]]]; try congruence.
    + exists [5%nat], [6%nat]. split; [vm_compute; reflexivity|]. split; repeat constructor; vm_compute; reflexivity.
    + exists [3%nat], []. split; [vm_compute; reflexivity|]. split; repeat constructor; vm_compute; reflexivity.
    + exists [2%nat], []. split; [vm_compute; reflexivity|]. split; repeat constructor; vm_compute; reflexivity.
    + exists [1%nat], []. split; [vm_compute; reflexivity|]. split; repeat constructor; vm_compute; reflexivity.
    + exists [], [0%nat]. split; [vm_compute; reflexivity|]. split; repeat constructor; vm_compute; reflexivity.
  - split; [vm_compute; reflexivity|]. split; [|split; [|vm_compute; reflexivity]].
    + assert (Q8 : forall z, 0 <= z < 256 -> object (mrun (builtin ++ [MClass []; MClass [5; 6]; MIndex 7 (XInt 8); MIndex 7 (XInt 4)])%nat) (UVec (VObj 12 z))).
      { intros z Hz. split; [|exists 8; split; [vm_compute; reflexivity|exact Hz]]. split; [split; vm_compute; reflexivity|]. split; [vm_compute; reflexivity|].
        exists 8. split; [vm_compute; reflexivity|lia]. }
      constructor; [apply Q8; lia|]. constructor; [apply Q8; lia|]. constructor; [|constructor].
      split; [|exists 4; split; [vm_compute; reflexivity|change (0 <= 3 < 16); lia]]. split; [split; vm_compute; reflexivity|].
      split; [vm_compute; reflexivity|]. exists 4. split; [vm_compute; reflexivity|lia].
    + intros c Hc. cbn in Hc. assert (D : c = 12%nat \/ c = 17%nat) by (repeat destruct Hc as [<-|Hc]; auto; destruct Hc).
      destruct D as [-> | ->]; [exists 8|exists 4]; vm_compute; reflexivity.
Qed.
(** Any classes, all derived from SIntVector or none: what a program computes, it computes on the plain vectors as well. *)
Theorem C113_numbers : forall h b rs p s' vs,
  let s := mrun (builtin ++ h) in
  Forall (object s) rs -> (forall c, In c (start_classes rs p) -> vclass s c /\ below_SIntVector s c = b) ->
  drun s rs p = Ok (s', vs) ->
  conc_run (map (plain s) rs) (map (plain_call s) p) = Ok (map (plain s') vs)
  /\ forall x, In (UVec x) vs -> object s' (UVec x) /\ below_SIntVector s' (vcls x) = b.
Proof. exact C113_numbers_pf. Qed.
Print Assumptions C113_numbers.

(** class Byte(BitVector[8]): pass, with BitVector[8] and Byte mixed: 7 is BitVector[8], 8 is Byte. The comparison asks the Byte first. *)
Example C113_numbers_ex :
  let s := mrun (builtin ++ [MIndex 2 (XInt 8); MClass [7]])%nat in
  let rs := [UVec (VObj 7 200); UVec (VObj 8 100)] in
  let p := [DOp OSub 1 (Reg 0); DCmp CGt 0 (Reg 1); DConcat 0 1; DSet 1 (-1) (Num 1); DLit 8 300] in
  Forall (object s) rs /\ (forall c, In c (start_classes rs p) -> vclass s c /\ below_SIntVector s c = false)
  /\ rmap (fun r => map (plain (fst r)) (snd r)) (drun s rs p) = Ok [VBV (BV (BVC KBV 8) 200); VBV (BV (BVC KBV 8) 100); VBV (BV (BVC KBV 8) 156);
       VBit true; VBV (BV (BVC KBV 16) 25800); VBV (BV (BVC KBV 8) 228); VBV (BV (BVC KBV 8) 44)].
Proof.
  cbv zeta. set (s := mrun _). assert (V : forall c, c = 7%nat \/ c = 8%nat -> vclass s c /\ below_SIntVector s c = false).
  { intros c [-> | ->]; (split; [|vm_compute; reflexivity]); (split; [split; vm_compute; reflexivity|]); (split; [vm_compute; reflexivity|]);
      exists 8; (split; [vm_compute; reflexivity|lia]). }
  split; [|split; [|vm_compute; reflexivity]].
  - constructor; [|constructor; [|constructor]]; (split; [apply V; auto|]); exists 8; (split; [vm_compute; reflexivity|]).
    + change (0 <= 200 < 256). lia.
    + change (0 <= 100 < 256). lia.
  - intros c Hc. apply V. cbn in Hc. repeat destruct Hc as [<-|Hc]; auto. destruct Hc.
Qed.
(** Not so when some of the classes are signed and others not: Byte(128) >> SIntVector[8](1) shifts in zeros, where
    BitVector[8](128) >> SIntVector[8](1) lets SIntVector's reflected method shift in the sign (10 is SIntVector[8], no subclass of Byte). *)
Theorem C113_mixed_refuted : exists h x y r w,
  let s := mrun (builtin ++ h) in
  object s (UVec x) /\ object s (UVec y) /\ below_SIntVector s (vcls x) = false /\ below_SIntVector s (vcls y) = true
  /\ ubinop s OShr (UVec x) (UVec y) = Ok (UVec r) /\ vval r = 64
  /\ py_binop_val OShr (plain s (UVec x)) (plain s (UVec y)) = Ok (VBV w) /\ bval w = 192.
Proof. exact C113_mixed_refuted_pf. Qed.
Print Assumptions C113_mixed_refuted.

(** Which methods a derived class runs: in its method resolution order SIntVector, if it is there, precedes BitVector. *)
Theorem C113_signed : forall h c, let s := mrun (builtin ++ h) in is_bv s c -> below_BitVector s c ->
  signed_cls s c = below_SIntVector s c
  /\ (below_SIntVector s c = true -> exists l1 l2, c_mro (get_cls s c) = l1 ++ 5%nat :: l2 /\ ~ In 2%nat l1 /\ In 2%nat l2).
Proof. exact C113_signed_pf. Qed.
Print Assumptions C113_signed.

Example C113_signed_ex : (* class K(SIntVector): pass; class L(UIntVector): pass *)
  let s := mrun (builtin ++ [MClass [5]; MClass [4]])%nat in
  is_bv s 6 /\ below_BitVector s 6 /\ signed_cls s 6 = true /\ is_bv s 7 /\ below_BitVector s 7 /\ signed_cls s 7 = false.
Proof. cbv zeta. repeat (split; [first [vm_compute; reflexivity|split; vm_compute; reflexivity]|]). vm_compute. reflexivity. Qed.

(** The arithmetic, bitwise and shift operators, ~, - and item assignment give the class of the receiver. *)
Theorem C113_keeps : forall s rs i x a s' vs, keeps i = Some x -> reg rs x = Ok (UVec a) -> dcall s rs i = Ok (s', vs) ->
  s' = s /\ exists v, vs = [UVec v] /\ vcls v = vcls a.
Proof. exact C113_keeps_pf. Qed.
Print Assumptions C113_keeps.

Example C113_keeps_ex : (* a Byte shifted by an SIntVector[8] is a Byte *)
  let s := mrun (builtin ++ [MIndex 2 (XInt 8); MClass [7]; MIndex 5 (XInt 8)])%nat in
  keeps (DOp OShr 0 (Reg 1)) = Some 0%nat
  /\ dcall s [UVec (VObj 8 128); UVec (VObj 10 1)] (DOp OShr 0 (Reg 1)) = Ok (s, [UVec (VObj 8 64)]).
Proof. vm_compute. auto. Qed.

(** A class with no unsized_t: the calls that rebuild the vector raise AttributeError, however the rest of the program is. *)
Theorem C113_no_unsized : forall s rs i x a, rebuilds i = Some x -> Forall (fun k => (k < length rs)%nat) (reads i) ->
  reg rs x = Ok (UVec a) -> c_unsized (get_cls s (vcls a)) = None -> 0 < vsize s a -> dcall s rs i = Raise EAttributeError.
Proof. exact C113_no_unsized_pf. Qed.
Print Assumptions C113_no_unsized.

Example C113_no_unsized_ex : (* Byte(5)[0:4] *)
  let s := mrun (builtin ++ [MIndex 2 (XInt 8); MClass [7]])%nat in
  c_unsized (get_cls s 8) = None /\ vsize s (VObj 8 5) = 8 /\ rebuilds (DSlice 0 (Some 0) (Some 4)) = Some 0%nat
  /\ dcall s [UVec (VObj 8 5)] (DSlice 0 (Some 0) (Some 4)) = Raise EAttributeError
  /\ rmap snd (dcall s [UVec (VObj 7 5)] (DSlice 0 (Some 0) (Some 4))) = Ok [UVec (VObj 10 5)].
Proof. vm_compute. repeat split. Qed.

(** Which sized classes have none: those that are not u[n] for any u, in particular those of a class statement. *)
Theorem C113_which : forall h c n, let s := mrun (builtin ++ h) in alive s c = true -> c_size (get_cls s c) = Some n ->
  (c_unsized (get_cls s c) = None <-> forall u, is_bv s u -> ~ sized_of s u c).
Proof. exact C113_which_pf. Qed.
Print Assumptions C113_which.
Theorem C113_statement : forall h bs, let s := mrun h in let s' := mstep s (MClass bs) in let c := length (classes s) in
  length (classes s') = S c ->
  c_unsized (get_cls s' c) = match c_size (get_cls s' c) with Some _ => None | None => Some c end.
Proof. exact C113_statement_pf. Qed.
Print Assumptions C113_statement.

(** M(T) has the size of T and is a subclass of T; if T is sized it has no unsized_t, so none of the calls of C113_no_unsized work. *)
Theorem C113_modified : forall h c s' d t, let s := mrun h in alive s c = true -> vmodified s [] c = Ok (s', d, t) ->
  issub s' t c = true /\ c_size (get_cls s' t) = c_size (get_cls s c)
  /\ c_unsized (get_cls s' t) = match c_size (get_cls s c) with Some _ => None | None => Some t end.
Proof. exact C113_modified_pf. Qed.
Print Assumptions C113_modified.

Example C113_modified_ex : (* M(BitVector[8]) is class 12 here *)
  let s := mrun (builtin ++ [MIndex 2 (XInt 8)])%nat in
  alive s 7 = true /\ exists s' d, vmodified s [] 7 = Ok (s', d, 12%nat) /\ issub s' 12 7 = true /\ c_size (get_cls s' 12) = Some 8
    /\ c_unsized (get_cls s' 12) = None /\ c_unsized (get_cls s' 7) = Some 2%nat.
Proof. cbv zeta. split; [vm_compute; reflexivity|]. do 2 eexists. split; [vm_compute; reflexivity|]. vm_compute. auto. Qed.
(** Wrapping the class of a vector in a modifier is not transparent: M(BitVector[8])(5)[0:4] raises where BitVector[8](5)[0:4] does not. *)
Theorem C113_modified_refuted : exists h c s' d t r,
  let s := mrun (builtin ++ h) in
  alive s c = true /\ vmodified s [] c = Ok (s', d, t)
  /\ dcall s [UVec (VObj c 5)] (DSlice 0 (Some 0) (Some 4)) = Ok r
  /\ dcall s' [UVec (VObj t 5)] (DSlice 0 (Some 0) (Some 4)) = Raise EAttributeError.
Proof. exact C113_modified_refuted_pf. Qed.
Print Assumptions C113_modified_refuted.
