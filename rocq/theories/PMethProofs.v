(** Proofs of the theorems stated in PMethProps.v. *)
From Coq Require Import Lia ZifyBool.
From Verif Require Import PyBase BVModel BVSpec BVFacts BVOps BVPropFacts BVProofs OpModel OpSpec OpFacts IteModel IteSpec IteFacts SMTSpec PMethModel PMethSpec.



Definition setk (k : kind) (x : bv) : bv := BV (BVC k (bsize x)) (bval x).
Definition bk (k : kind) (i : bitem) : bitem := match i with BVec x => BVec (setk k x) | i => i end.

Lemma as_bv_eq x y : pn x = pn y -> pv x = pv y -> as_bv x = as_bv y.
Proof. unfold as_bv. now intros -> ->. Qed.

Lemma signed_mod m y : 1 <= m -> 0 <= y < 2 ^ m -> signed m y mod 2 ^ m = y.
Proof.
  intros Hm Hy. unfold signed. destruct (_ <? _); [now apply Z.mod_small|].
  replace (y - 2 ^ m) with (y + (-1) * 2 ^ m) by lia. rewrite Z.mod_add by (pose proof (Z.pow_pos_nonneg 2 m); lia). now apply Z.mod_small.
Qed.

Lemma like_same x y l : Forall2 same_item (map (pitem_of x) l) (map (pitem_of y) l).
Proof. induction l as [|[] l IH]; cbn; constructor; auto; constructor; reflexivity. Qed.

Lemma C89_methods_pf : forall h tab c i j a b v id' m n,
  nth_error (objs (hrun h)) i = Some a -> nth_error (objs (hrun h)) j = Some b ->
  ite tab (next_id (hrun h)) c (BrVec a) (BrVec b) = Ok (BrVec v, id') -> plain_call m ->
  same_outcome (p_call n m v) (p_call n m (if c then a else b)).
Proof.
  intros h tab c i j a b v id' m n Ha Hb Hi Hm.
  destruct (reachable_ite _ _ _ _ _ _ _ _ _ Ha Hb Hi) as (r & Er & Wa & Wb & Wr & En & Nr & Vr & _). inv Er.
  assert (E : as_bv r = as_bv (if c then a else b)) by (apply as_bv_eq; auto; rewrite Nr; now destruct c).
  destruct m; try contradiction; unfold p_call; rewrite E; (destruct (b_call _ _ _) as [ll|ee]; cbn; [apply like_same|reflexivity]).
Qed.

Lemma C89_values_pf : forall id x a u d c, pwf x -> 1 <= pn x -> operand (pn x) (arg_val a) u -> operand 1 (arg_val d) c ->
  let n := pn x in let s := signed n (pv x) in let vec w := Ok ([IVec (PObj (pc x) n w)], id) in
  (exists w, p_call id (CRol a) x = vec w /\ 0 <= w < 2 ^ n /\ forall i, 0 <= i < n -> Z.testbit w i = Z.testbit (pv x) ((i - u) mod n)) /\
  (exists w, p_call id (CRor a) x = vec w /\ 0 <= w < 2 ^ n /\ forall i, 0 <= i < n -> Z.testbit w i = Z.testbit (pv x) ((i + u) mod n)) /\
  p_call id (CSdiv a) x = vec (if u =? 0 then 2 ^ n - 1 else (s / signed n u) mod 2 ^ n) /\
  p_call id (CSrem a) x = vec (if u =? 0 then pv x else (s mod signed n u) mod 2 ^ n) /\
  p_call id CNot x = vec (2 ^ n - 1 - pv x) /\ p_call id CNeg x = vec ((- pv x) mod 2 ^ n) /\
  (exists w co, p_call id (CAdc a d) x = Ok ([IVec (PObj (pc x) n w); IBit co], id) /\ 0 <= w < 2 ^ n /\ w + 2 ^ n * (if co then 1 else 0) = pv x + u + c) /\
  p_call id CUint x = Ok ([INum (pv x)], id) /\ p_call id CSint x = Ok ([INum s], id) /\
  (forall i, - n <= i < n -> p_call id (CItem i) x = Ok ([IBit (Z.testbit (pv x) (i mod n))], id)).
Proof.
  intros id x a u d c W Hn Ha Hd n s vec'. pose proof (as_bv_wf x W) as B. unfold vec', s, n. unfold p_call. cbn [b_call].
  split; [|split; [|split; [|split; [|split; [|split; [|split; [|split; [|split]]]]]]]].
  - destruct (C14_rol_pf (as_bv x) (arg_val a) u B Hn Ha) as (y & -> & C & Wy & T). exists (bval y). cbn. unfold like, bsize. rewrite C.
    split; [reflexivity|]. destruct Wy as [_ Wy]. rewrite C in Wy. split; [exact Wy|exact T].
  - destruct (C14_ror_pf (as_bv x) (arg_val a) u B Hn Ha) as (y & -> & C & Wy & T). exists (bval y). cbn. unfold like, bsize. rewrite C.
    split; [reflexivity|]. destruct Wy as [_ Wy]. rewrite C in Wy. split; [exact Wy|exact T].
  - rewrite (C09_sdiv_pf (as_bv x) (arg_val a) u B Ha Hn). reflexivity.
  - destruct (C09_srem_pf (as_bv x) (arg_val a) u B Ha Hn) as (r & -> & E). cbn [PMethModel.vec' rmap]. rewrite E. reflexivity.
  - rewrite (BVOps.bvnot_spec (as_bv x) B). reflexivity.
  - rewrite C05_neg_pf by exact B. reflexivity.
  - destruct (C15_adc_pf (as_bv x) (arg_val a) u (arg_val d) c B Ha Hd) as (y & co & -> & C & Wy & T). exists (bval y), co. cbn. unfold like, bsize. rewrite C.
    split; [reflexivity|]. destruct Wy as [_ Wy]. rewrite C in Wy. split; [exact Wy|exact T].
  - reflexivity.
  - rewrite C04_as_sint_is_signed_pf by auto. reflexivity.
  - intros i Hi. pose proof (C17_getitem_pf (as_bv x) i B Hi) as G. cbn [getitem] in G. destruct (getitem_int (as_bv x) i) as [b|]; [|discriminate].
    injection G as ->. reflexivity.
Qed.

Lemma C89_ext_pf : forall h tab c i j a b v id' e n,
  nth_error (objs (hrun h)) i = Some a -> nth_error (objs (hrun h)) j = Some b ->
  ite tab (next_id (hrun h)) c (BrVec a) (BrVec b) = Ok (BrVec v, id') -> 1 <= pn a -> 1 <= e ->
  let s := if c then a else b in
  let u := if is_signed (selected_kind (pc s)) then signed (pn s) (pv s) mod 2 ^ (pn s + e) else pv s in
  p_call n (CExt e) v = Ok ([IVec (PObj (pc v) (pn a + e) u)], n) /\ p_call n (CExt e) s = Ok ([IVec (PObj (pc s) (pn a + e) u)], n).
Proof.
  intros h tab c i j a b v id' e n Ha Hb Hi Hn He s u.
  destruct (reachable_ite _ _ _ _ _ _ _ _ _ Ha Hb Hi) as (r & Er & Wa & Wb & Wr & En & Nr & Vr & Kr & _). inv Er.
  assert (Ws : pwf s) by (unfold s; now destruct c). assert (Ns : pn s = pn a) by (unfold s; now destruct c).
  assert (G : forall x, pwf x -> pn x = pn a -> p_call n (CExt e) x = Ok ([IVec (PObj (pc x) (pn a + e)
      (if is_signed (selected_kind (pc x)) then signed (pn x) (pv x) mod 2 ^ (pn x + e) else pv x))], n)).
  { intros x Wx Nx. unfold p_call.
    rewrite (run_resolve leaf_ext true (fun sg => if sg then signed (pn x) (pv x) mod 2 ^ (pn x + e) else pv x) (pc x) (pn a + e)).
    - reflexivity.
    - lia.
    - intros []; [rewrite Nx; apply Z.mod_pos_bound; apply Z.pow_pos_nonneg; lia|]. destruct Wx as [W1 W2]. rewrite Nx in *.
      split; [lia|]. eapply Z.lt_le_trans; [apply W2|]. apply Z.pow_le_mono_r; lia.
    - intros []; unfold leaf_ext.
      + destruct (C66_sext_partial_pf (as_bv x) e (as_bv_wf x Wx)) as (y & -> & Wy & Cy & Sy); [cbn; lia|lia|]. cbn [rmap]. unfold like.
        change (bsize (as_bv x)) with (pn x) in *. change (bval (as_bv x)) with (pv x) in *.
        assert (By : bsize y = pn x + e) by (unfold bsize; now rewrite Cy). destruct Wy as [_ Wy]. fold (bsize y) in Wy. rewrite By in *.
        rewrite <- Sy, signed_mod, Nx by (auto; lia). reflexivity.
      + rewrite C12_zext_pf by (try apply as_bv_wf; auto; lia). cbn. now rewrite Nx. }
  fold s in Vr, Kr. split; [rewrite (G r) by auto|rewrite (G s) by auto]; unfold u; rewrite ?Kr, ?Nr, ?Vr, ?Ns; reflexivity.
Qed.

Lemma C89_ext_negative_pf : forall id x e, e < 0 -> p_call id (CExt e) x = Raise EValueError.
Proof.
  intros id x e He. unfold p_call. assert (L : forall s, leaf_ext s x (AOther (VInt e)) = Raise EValueError).
  { intros []; unfold leaf_ext; [rewrite C66_negative_pf by auto|rewrite C12_negative_pf by auto]; reflexivity. }
  assert (R : forall c id, run_meth leaf_ext (resolve true c) id x (AOther (VInt e)) = Raise EValueError); [|now rewrite R].
  induction c as [k|i t0 IH0 t1 IH1 sel]; intros m; cbn [resolve].
  - cbn [run_meth]. now rewrite L.
  - specialize (IH0 m). destruct (resolve true t0) as [s0|s0 m0 m0'], (resolve true t1) as [s1|s1 m1 m1']; cbn [build_vcall];
      try (destruct (Bool.eqb s0 s1); [exact IH0|]); cbn [run_meth] in *; rewrite ?IH0 in *; try reflexivity; now rewrite L.
Qed.

Lemma C89_ext_zero_refuted_pf : exists h tab c a b v id' r, nth_error (objs (hrun h)) 0 = Some a /\ nth_error (objs (hrun h)) 1 = Some b /\
  ite tab (next_id (hrun h)) c (BrVec a) (BrVec b) = Ok (BrVec v, id') /\
  p_call id' (CExt 0) v = Raise EValueError /\ p_call id' (CExt 0) (if c then a else b) = Ok (r, id').
Proof.
  exists [HNew KUInt 4 5; HNew KSInt 4 3], no_protocols, true. do 5 eexists. repeat (split; [vm_compute; reflexivity|]). vm_compute; reflexivity.
Qed.

Lemma C89_concat_pf : forall id x y, pwf x -> pwf y -> pc y = pc x ->
  p_call id (CConcat y) x = Ok ([IVec (PObj (pc x) (pn x + pn y) (pv x + pv y * 2 ^ pn x))], id).
Proof.
  intros id x y Wx Wy E. unfold p_call, concat_accepts. rewrite E, pcls_eqb_refl. cbn [orb b_call vec arg_val].
  rewrite (C11_concat_pf (as_bv x) (as_bv y)) by (auto using as_bv_wf). reflexivity.
Qed.

Lemma join_le a b k : kind_le (kind_join a b) k = true <-> kind_le a k = true /\ kind_le b k = true.
Proof. destruct a, b, k; cbn; intuition discriminate. Qed.

Lemma C89_concat_builtin_pf : forall h tab c i j a b v id' k n x u id,
  nth_error (objs (hrun h)) i = Some a -> nth_error (objs (hrun h)) j = Some b ->
  ite tab (next_id (hrun h)) c (BrVec a) (BrVec b) = Ok (BrVec v, id') -> x = PObj (PBase k) n u -> pwf x ->
  (p_call id (CConcat v) x = Raise ETypeError /\
     (p_call id (CConcat a) x = Raise ETypeError \/ p_call id (CConcat b) x = Raise ETypeError)) \/
  (exists r, p_call id (CConcat v) x = Ok r /\ p_call id (CConcat (if c then a else b)) x = Ok r /\
     forall y, y = a \/ y = b -> exists q, p_call id (CConcat y) x = Ok q).
Proof.
  intros h tab c i j a b v id' k n x u id Ha Hb Hi Ex Wx.
  destruct (reachable_ite _ _ _ _ _ _ _ _ _ Ha Hb Hi) as (r & Er & Wa & Wb & Wr & En & Nr & Vr & _ & S1 & S2). inv Er.
  set (x := PObj (PBase k) n u) in *.
  assert (AC : forall y, pwf y -> p_call id (CConcat y) x =
     if kind_le (base_kind (pc y)) k then Ok ([IVec (PObj (PBase k) (n + pn y) (u + pv y * 2 ^ n))], id) else Raise ETypeError).
  { intros y Wy. unfold p_call, concat_accepts. cbn [pc x].
    replace (pcls_eqb (pc y) (PBase k) || kind_le (base_kind (pc y)) k) with (kind_le (base_kind (pc y)) k).
    - destruct (kind_le _ _); [|reflexivity]. cbn [b_call vec arg_val]. rewrite (C11_concat_pf (as_bv x) (as_bv y)) by auto using as_bv_wf. reflexivity.
    - destruct (pc y) as [l|]; [|reflexivity]. cbn [pcls_eqb base_kind]. destruct l, k; reflexivity. }
  assert (J : kind_le (base_kind (pc r)) k = true <-> kind_le (base_kind (pc a)) k = true /\ kind_le (base_kind (pc b)) k = true).
  { destruct (same_cls a b) eqn:Es.
    - destruct (hrun_ok h) as [T HT]. rewrite Forall_forall in HT. apply nth_error_In in Ha, Hb. apply HT in Ha as [_ Ka]. apply HT in Hb as [_ Kb].
      assert (Ec : pc a = pc b) by (unfold same_cls in Es; apply andb_prop in Es as [Es _]; eapply knows_eqb; eauto).
      rewrite (S1 eq_refl). destruct c; rewrite ?Ec; tauto.
    - rewrite (S2 eq_refl). apply join_le. }
  rewrite !AC by auto. destruct (kind_le (base_kind (pc r)) k) eqn:E.
  - right. destruct (proj1 J eq_refl) as [A B]. eexists. split; [reflexivity|]. rewrite AC by now destruct c.
    replace (kind_le (base_kind (pc (if c then a else b))) k) with true by (now destruct c).
    split; [rewrite Nr, Vr; destruct c; rewrite ?En; reflexivity|]. intros y [->| ->]; rewrite AC by auto; [rewrite A|rewrite B]; eauto.
  - left. split; [reflexivity|]. destruct (kind_le (base_kind (pc a)) k); [|auto]. destruct (kind_le (base_kind (pc b)) k); [|auto].
    exfalso. enough (false = true) by discriminate. apply J. auto.
Qed.

Lemma C89_concat_refuted_pf : exists h tab c a b y v id' r, nth_error (objs (hrun h)) 0 = Some a /\ nth_error (objs (hrun h)) 1 = Some b /\
  nth_error (objs (hrun h)) 2 = Some y /\ ite tab (next_id (hrun h)) c (BrVec a) (BrVec b) = Ok (BrVec v, id') /\
  p_call id' (CConcat y) v = Raise ETypeError /\ p_call id' (CConcat y) (if c then a else b) = Ok (r, id').
Proof.
  exists [HNew KBV 4 5; HNew KSInt 4 3; HNew KBV 4 2], no_protocols, true. do 6 eexists. repeat (split; [vm_compute; reflexivity|]). vm_compute; reflexivity.
Qed.

Lemma init_k k n w : bv_init (BVC k n) w = rmap (setk k) (bv_init (BVC KBV n) w).
Proof.
  destruct w as [| | | |l| |[i|] b t]; try reflexivity; cbn [bv_init]; [destruct (mapM truth l)|destruct i]; reflexivity.
Qed.

Lemma construct_k k n w : construct k n w = rmap (setk k) (construct KBV n w).
Proof. unfold construct, sized. destruct (n <? 0); auto. cbn [bind]. apply init_k. Qed.

Lemma coerce_k k n a : builtin_arg a ->
  (exists e, coerce (BVC k n) (real_arg a) = Raise e /\ coerce (BVC KBV n) (arg_val a) = Raise e) \/
  (exists k1 k2 m u, coerce (BVC k n) (real_arg a) = Ok (BV (BVC k1 m) u) /\ coerce (BVC KBV n) (arg_val a) = Ok (BV (BVC k2 m) u)).
Proof.
  assert (G : forall w, (forall y, w <> VBV y) -> (exists e, coerce (BVC k n) w = Raise e /\ coerce (BVC KBV n) w = Raise e) \/
    (exists k1 k2 m u, coerce (BVC k n) w = Ok (BV (BVC k1 m) u) /\ coerce (BVC KBV n) w = Ok (BV (BVC k2 m) u))).
  { intros w Hw. replace (coerce (BVC k n) w) with (bv_init (BVC k n) w) by (destruct w; auto; now elim (Hw x)).
    replace (coerce (BVC KBV n) w) with (bv_init (BVC KBV n) w) by (destruct w; auto; now elim (Hw x)).
    rewrite init_k. destruct (bv_init (BVC KBV n) w) as [[[k2 m] u]|e]; [right; do 4 eexists|left; eexists]; split; reflexivity. }
  intros B. destruct a as [[[l|] m u]|w]; [|destruct B|].
  - cbn [real_arg arg_val as_bv coerce bsize bcls csize pn pv]. destruct (m =? n); cbn [negb]; [right; do 4 eexists|left; eexists]; split; reflexivity.
  - cbn [real_arg arg_val]. destruct w; try (apply G; discriminate). cbn [coerce]. destruct x as [[l m] u].
    cbn [bsize bcls csize]. destruct (m =? n); cbn [negb]; [right; do 4 eexists|left; eexists]; split; reflexivity.
Qed.

Lemma slice_k k x i j l : getitem_slice (setk k x) i j l = rmap (setk k) (getitem_slice (setk KBV x) i j l).
Proof. unfold getitem_slice. change (bits (setk k x)) with (bits (setk KBV x)). destruct (list_slice _ _ _ _ _); auto. cbn [bind]. apply construct_k. Qed.

Lemma concat_k k x y : concat (setk k x) (VBV (setk k y)) = rmap (setk k) (concat (setk KBV x) (VBV (setk KBV y))).
Proof. unfold concat. cbn [bkind bcls ck setk]. destruct k; cbn [kind_le]; apply construct_k. Qed.

Lemma item_k k x i : getitem_int (setk k x) i = getitem_int (setk KBV x) i.
Proof. reflexivity. Qed.

Lemma sint_k k k' n u : as_sint (BV (BVC k n) u) = as_sint (BV (BVC k' n) u).
Proof. reflexivity. Qed.

Lemma repeat_k k x r : bv_repeat (setk k x) r = rmap (setk k) (bv_repeat (setk KBV x) r).
Proof. unfold bv_repeat. destruct (r <=? 0); auto. apply construct_k. Qed.

Lemma zext_k k x e : zext (setk k x) e = rmap (setk k) (zext (setk KBV x) e).
Proof.
  unfold zext. destruct (e <? 0); auto. cbn [bkind bcls ck setk]. rewrite (construct_k k). destruct (construct KBV e (VInt 0)) as [z|] eqn:E; auto.
  cbn [rmap bind]. rewrite (concat_k k). do 3 f_equal. unfold construct, sized in E. destruct (e <? 0); inv E. reflexivity.
Qed.

Lemma setk_id x : bkind x = KBV -> setk KBV x = x.
Proof. destruct x as [[k n] u]. cbn. now intros ->. Qed.

Lemma construct_kind k n w x : construct k n w = Ok x -> bkind x = k.
Proof. rewrite construct_k. destruct (construct KBV n w); intros H; inv H. reflexivity. Qed.

Lemma repeat_kind x r y : bv_repeat x r = Ok y -> bkind y = bkind x.
Proof. unfold bv_repeat. destruct (r <=? 0); [discriminate|]. apply construct_kind. Qed.

Lemma slice_kind x i j l y : getitem_slice x i j l = Ok y -> bkind y = bkind x.
Proof. unfold getitem_slice. destruct (list_slice _ _ _ _ _); [|discriminate]. apply construct_kind. Qed.

Lemma sext_k k x e : sext (setk k x) e = rmap (setk k) (sext (setk KBV x) e).
Proof.
  unfold sext. destruct (e <? 0); auto. rewrite (item_k k). destruct (getitem_int (setk KBV x) (-1)) as [b|]; auto. cbn [bind bkind bcls ck setk].
  rewrite (construct_k k). destruct (construct KBV 1 (VBit b)) as [t|] eqn:E; auto. cbn [bind rmap]. apply construct_kind in E.
  rewrite (repeat_k k), (setk_id t) by auto. destruct (bv_repeat t e) as [r|] eqn:R; auto. cbn [bind rmap]. apply repeat_kind in R. rewrite E in R.
  rewrite (concat_k k). now rewrite (setk_id r).
Qed.

Lemma rot_k k x n : rmap (rv_val (setk k x)) (rot_split (setk k x) n) = rmap (setk k) (rmap (rv_val (setk KBV x)) (rot_split (setk KBV x) n)).
Proof.
  unfold rot_split. rewrite !(slice_k k). destruct (getitem_slice (setk KBV x) (Some n) None None) as [a|] eqn:A; auto. cbn [bind rmap].
  destruct (getitem_slice (setk KBV x) None (Some n) None) as [b|] eqn:B; auto. cbn [bind rmap]. apply slice_kind in A, B.
  rewrite (concat_k k), (setk_id a), (setk_id b) by auto. now destruct (concat a (VBV b)).
Qed.

Lemma rmap_map A B C (f : A -> B) (g : B -> C) r : rmap g (rmap f r) = rmap (fun x => g (f x)) r.
Proof. now destruct r. Qed.

Lemma vec_rot k x r q : rmap (rv_val (setk k x)) r = rmap (setk k) (rmap (rv_val (setk KBV x)) q) ->
  vec' (setk k x) r = rmap (map (bk k)) (vec' (setk KBV x) q).
Proof. unfold vec'. destruct r, q; cbn; intros H; inv H; reflexivity. Qed.

Lemma vec_k k r q : r = rmap (setk k) q -> vec r = rmap (map (bk k)) (vec q).
Proof. intros ->. now destruct q. Qed.

Lemma zext_kind x e y : zext x e = Ok y -> bkind y = bkind x.
Proof.
  unfold zext. destruct (e <? 0); [discriminate|]. destruct (construct _ _ _); [|discriminate]. cbn [bind]. unfold concat.
  destruct (kind_le _ _); [|discriminate]. apply construct_kind.
Qed.

Lemma bvadd_k k l n m a b : bvadd (BV (BVC k n) a) (VBV (BV (BVC l m) b)) =
  if m =? n then Ok (New (BV (BVC k n) (Z.land (a + b) (Z.shiftl 1 n - 1)))) else Raise EInconsistentSize.
Proof. unfold bvadd, bv_cast. cbn [coerce bsize bcls csize]. destruct (m =? n); reflexivity. Qed.

Lemma setk_eq k l n z : setk k (BV (BVC l n) z) = BV (BVC k n) z.
Proof. reflexivity. Qed.

Lemma adc_k k x a c : builtin_arg a -> builtin_arg c ->
  adc (setk k x) (real_arg a) (real_arg c) = rmap (fun r => (setk k (fst r), snd r)) (adc (setk KBV x) (arg_val a) (arg_val c)).
Proof.
  intros Ba Bc. unfold adc. cbn [bcls setk bkind ck]. destruct (coerce_k k (bsize x) a Ba) as [(e & -> & ->)|(k1 & k2 & m & u & -> & ->)]; auto.
  cbn [bind]. unfold sized. cbn [Z.ltb bind]. change (1 <? 0) with false. cbv iota. cbn [bind].
  destruct (coerce_k k 1 c Bc) as [(e & -> & ->)|(k3 & k4 & m' & u' & -> & ->)]; auto. cbn [bind].
  change (BV (BVC k (bsize x)) (bval x)) with (setk k x). change (BV (BVC KBV (bsize x)) (bval x)) with (setk KBV x).
  change (BV (BVC k1 m) u) with (setk k1 (BV (BVC KBV m) u)). change (BV (BVC k2 m) u) with (setk k2 (BV (BVC KBV m) u)).
  change (BV (BVC k3 m') u') with (setk k3 (BV (BVC KBV m') u')). change (BV (BVC k4 m') u') with (setk k4 (BV (BVC KBV m') u')).
  rewrite (zext_k k), (zext_k k1), (zext_k k2), (zext_k k3), (zext_k k4). change (bsize (setk k x)) with (bsize x). change (bsize (setk KBV x)) with (bsize x).
  destruct (zext (setk KBV x) 1) as [[[kx nx] vx]|] eqn:EX; auto. apply zext_kind in EX. cbn in EX. subst kx.
  destruct (zext (setk KBV (BV (BVC KBV m) u)) 1) as [[[ka na] va]|]; auto. cbn [rmap bind].
  destruct (zext (setk KBV (BV (BVC KBV m') u')) (bsize x)) as [[[kb nb] vb]|]; auto. cbn [rmap bind].
  rewrite !setk_eq, !bvadd_k. destruct (na =? nx); auto. cbn [bind rv_val]. rewrite !bvadd_k.
  destruct (nb =? nx); auto. cbn [bind rv_val].
  match goal with |- context[getitem_slice (BV (BVC k nx) ?z)] => change (BV (BVC k nx) z) with (setk k (BV (BVC KBV nx) z));
    change (BV (BVC KBV nx) z) with (setk KBV (BV (BVC KBV nx) z)); set (Y := BV (BVC KBV nx) z) end.
  rewrite (slice_k k). change (setk KBV (setk KBV Y)) with (setk KBV Y). destruct (getitem_slice (setk KBV Y) (Some 0) (Some (-1)) None); auto. cbn [rmap bind].
  rewrite !(item_k k). change (setk KBV (setk KBV Y)) with (setk KBV Y). destruct (getitem_int (setk KBV Y) (-1)); reflexivity.
Qed.

Lemma cast_k k x a (f g : bv -> bv -> res rv) : builtin_arg a ->
  (forall k1 k2 m u, rmap (rv_val (setk k x)) (f (setk k x) (BV (BVC k1 m) u)) =
     rmap (setk k) (rmap (rv_val (setk KBV x)) (g (setk KBV x) (BV (BVC k2 m) u)))) ->
  rmap (rv_val (setk k x)) (bv_cast f (setk k x) (real_arg a)) = rmap (setk k) (rmap (rv_val (setk KBV x)) (bv_cast g (setk KBV x) (arg_val a))).
Proof.
  intros Ba H. unfold bv_cast. cbn [bcls setk]. destruct (coerce_k k (bsize x) a Ba) as [(e & -> & ->)|(k1 & k2 & m & u & -> & ->)]; auto. apply H.
Qed.

Lemma cast_rel k x a (f : bv -> bv -> res bool) : builtin_arg a ->
  (forall k1 k2 m u, f (setk k x) (BV (BVC k1 m) u) = f (setk KBV x) (BV (BVC k2 m) u)) ->
  bv_cast f (setk k x) (real_arg a) = bv_cast f (setk KBV x) (arg_val a).
Proof.
  intros Ba H. unfold bv_cast. cbn [bcls setk]. destruct (coerce_k k (bsize x) a Ba) as [(e & -> & ->)|(k1 & k2 & m & u & -> & ->)]; auto. apply H.
Qed.

Lemma meth_k k x m a : builtin_arg a ->
  rmap (rv_val (setk k x)) (conc_meth m (setk k x) (real_arg a)) = rmap (setk k) (rmap (rv_val (setk KBV x)) (conc_meth m (setk KBV x) (arg_val a))).
Proof.
  intros Ba. destruct m; cbn [conc_meth]; try (apply cast_k; [exact Ba|]; intros k1 k2 m u; reflexivity).
  - unfold bvnand, bvand, bv_cast. cbn [bcls setk]. destruct (coerce_k k (bsize x) a Ba) as [(e & -> & ->)|(k1 & k2 & m & u & -> & ->)]; auto.
  - unfold bvnor, bvor, bv_cast. cbn [bcls setk]. destruct (coerce_k k (bsize x) a Ba) as [(e & -> & ->)|(k1 & k2 & m & u & -> & ->)]; auto.
  - unfold bvxnor, bvxor, bv_cast. cbn [bcls setk]. destruct (coerce_k k (bsize x) a Ba) as [(e & -> & ->)|(k1 & k2 & m & u & -> & ->)]; auto.
  - apply cast_k; [exact Ba|]. intros k1 k2 m u. change (as_sint (setk k x)) with (as_sint (setk KBV x)). now destruct (as_sint (setk KBV x)).
  - apply cast_k; [exact Ba|]. intros k1 k2 m u. cbn [as_uint bval]. destruct (u =? 0); reflexivity.
  - apply cast_k; [exact Ba|]. intros k1 k2 m u. cbn [as_uint bval]. destruct (u =? 0); reflexivity.
Qed.

Lemma rel_k k x m a : builtin_arg a -> conc_rel m (setk k x) (real_arg a) = conc_rel m (setk KBV x) (arg_val a).
Proof.
  intros Ba. assert (S : bvslt (setk k x) (real_arg a) = bvslt (setk KBV x) (arg_val a)).
  { apply cast_rel; [exact Ba|]. intros k1 k2 n u. change (as_sint (setk k x)) with (as_sint (setk KBV x)). destruct (as_sint (setk KBV x)); reflexivity. }
  assert (E : bveq (setk k x) (real_arg a) = bveq (setk KBV x) (arg_val a)) by (apply cast_rel; [exact Ba|]; reflexivity).
  destruct m; cbn [conc_rel]; auto; try (apply cast_rel; [exact Ba|]; reflexivity); unfold bvsge, bvsgt, bvsle; rewrite ?S, ?E; reflexivity.
Qed.

Lemma set_k k x i b : setitem_int (setk k x) i b = rmap (setk k) (setitem_int (setk KBV x) i b).
Proof.
  unfold setitem_int. destruct (negb (bit_like b)); auto. change (bsize (setk k x)) with (bsize x). change (bsize (setk KBV x)) with (bsize x).
  cbv zeta. destruct (negb _); auto. set (z := Z.shiftl 1 _). unfold bvor, bvand, bv_cast. cbn [coerce bcls bvnot mk setk csize bsize]. rewrite Z.eqb_refl.
  cbn [negb bind]. destruct (bit_init b) as [[]|]; reflexivity.
Qed.

Lemma C89_builtin_pf : forall id c k n v, builtin_call c ->
  p_call id c (PObj (PBase k) n v) = rmap (fun l => (map of_builtin l, id)) (b_call real_arg c (BV (BVC k n) v)).
Proof.
  intros id c k n v Hc. set (x := BV (BVC KBV n) v). change (BV (BVC k n) v) with (setk k x).
  assert (G : forall q, q = rmap (map (bk k)) (b_call arg_val c (setk KBV x)) ->
    rmap (fun l => (map (pitem_of (PObj (PBase k) n v)) l, id)) (b_call arg_val c (as_bv (PObj (PBase k) n v))) = rmap (fun l => (map of_builtin l, id)) q).
  { intros q ->. change (as_bv (PObj (PBase k) n v)) with (setk KBV x). destruct (b_call arg_val c (setk KBV x)) as [l|]; auto. cbn [rmap]. do 2 f_equal.
    rewrite map_map. apply map_ext. intros [[[l' m] u]| |]; reflexivity. }
  destruct c as [m a|m a|a|a|a|a| | |i|i j l|e|e|e|r|y|i b|a c| |]; cbn [builtin_call] in Hc; unfold p_call; try (apply G; cbn [b_call]).
  - apply vec_rot. now apply meth_k.
  - rewrite (rel_k k x m a Hc). now destruct (conc_rel _ _ _).
  - apply vec_rot. apply cast_k; [exact Hc|]. intros k1 k2 m u. change (bsize (setk k x)) with (bsize (setk KBV x)). destruct (_ =? 0); auto. apply rot_k.
  - apply vec_rot. apply cast_k; [exact Hc|]. intros k1 k2 m u. change (bsize (setk k x)) with (bsize (setk KBV x)). destruct (_ =? 0); auto. apply rot_k.
  - apply vec_rot. apply cast_k; [exact Hc|]. intros k1 k2 m u. rewrite (sint_k k1 k2). destruct (as_sint (BV (BVC k2 m) u)); auto. cbn [bind].
    destruct (_ =? 0); auto. change (as_sint (setk k x)) with (as_sint (setk KBV x)). now destruct (as_sint (setk KBV x)).
  - apply vec_rot. apply cast_k; [exact Hc|]. intros k1 k2 m u. rewrite (sint_k k1 k2). destruct (as_sint (BV (BVC k2 m) u)); auto. cbn [bind].
    destruct (_ =? 0); auto. change (as_sint (setk k x)) with (as_sint (setk KBV x)). now destruct (as_sint (setk KBV x)).
  - reflexivity.
  - reflexivity.
  - rewrite (item_k k). now destruct (getitem_int _ _).
  - apply vec_k, slice_k.
  - apply vec_k, zext_k.
  - apply vec_k, sext_k.
  - cbn [pc resolve andb run_meth leaf_ext b_call]. change (as_bv (PObj (PBase k) n v)) with (setk KBV x). unfold ext. change (bkind (setk k x)) with k.
    assert (Z : vec (zext (setk k x) e) = rmap (map (bk k)) (vec (zext (setk KBV x) e))) by (apply vec_k, zext_k).
    assert (S : vec (sext (setk k x) e) = rmap (map (bk k)) (vec (sext (setk KBV x) e))) by (apply vec_k, sext_k).
    destruct k; cbn [kind_eqb]; (match goal with |- _ = rmap _ ?t => first [replace t with (rmap (map (bk KSInt)) (vec (sext (setk KBV x) e))) by (symmetry; exact S)|rewrite Z at 1] end); unfold vec; [destruct (zext (setk KBV x) e) as [[[kk nn] vv]|]..|destruct (sext (setk KBV x) e) as [[[kk nn] vv]|]]; reflexivity.
  - apply vec_k, repeat_k.
  - destruct y as [[l|] m u]; [|destruct Hc]. unfold concat_accepts. cbn [pc pcls_eqb base_kind].
    assert (K : kind_eqb l k || kind_le l k = kind_le l k) by now destruct l, k. rewrite K. cbn [b_call real_arg arg_val]. unfold concat at 2. cbn [bkind bcls ck setk].
    destruct (kind_le l k) eqn:E; [|reflexivity]. apply (G (vec (construct k (bsize (setk k x) + bsize (BV (BVC l m) u)) (VInt (Z.lor (bval (setk k x)) (Z.shiftl (bval (BV (BVC l m) u)) (bsize (setk k x)))))))).
    cbn [b_call]. apply vec_k. rewrite construct_k. reflexivity.
  - apply vec_k, set_k.
  - destruct Hc as [Ha Hb]. rewrite (adc_k k x a c Ha Hb). now destruct (adc _ _ _).
  - reflexivity.
  - change (as_sint (setk k x)) with (as_sint (setk KBV x)). now destruct (as_sint (setk KBV x)).
Qed.
