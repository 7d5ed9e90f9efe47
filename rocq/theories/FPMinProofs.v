(** Proofs of the theorems stated in FPMinProps.v. *)
From Coq Require Import Lia ZArith QArith Qpower Qabs ZifyBool Lqa.
From Verif Require Import PyBase BVModel BVSpec BVFacts BVOps FPModel FPSpec FPRoundFacts FPPatFacts FPEncFacts FPDecFacts FPBracket FPQFacts FPRoundSpec FPInst FPArith FPMore FPProofs FPAlgFacts FPAlgProofs FPMinFacts.
Open Scope Z_scope.

Lemma nonnan_fnum x : fp_is_NaN x = false -> nonnan (fnum x) = true.
Proof. unfold fp_is_NaN, fnum. destruct (fv_val x); cbn; intros; try discriminate; try reflexivity. destruct (_ <=? _); reflexivity. Qed.

Lemma min_back f x y : wide f -> good f x -> good f y -> exists z, good f z /\ fp_min x (AFP y) = Ok z /\ fnum z = num_min (fnum x) (fnum y).
Proof.
  intros W G G'. unfold fp_min. rewrite (arith_eq f) by auto using min_ok. pose proof (wide_okf f W) as O.
  assert (C : num_min (fnum x) (fnum y) = fnum x \/ num_min (fnum x) (fnum y) = fnum y \/
              (num_min (fnum x) (fnum y) = NNaN false /\ nonnan (fnum x) = false)).
  { unfold num_min. destruct (fnum x), (fnum y); cbn; auto; repeat match goal with |- context [if ?b then _ else _] => destruct b end; auto. }
  destruct C as [E|[E|[E N]]].
  - exists x. rewrite E, init_fnum by assumption. auto.
  - exists y. rewrite E, init_fnum by assumption. auto.
  - assert (I1 : f_ieee f = true).
    { destruct (f_ieee f) eqn:IE; [reflexivity|]. destruct G as (_ & _ & N'). specialize (N' IE). exfalso. revert N.
      rewrite nonnan_fnum by exact N'. discriminate. }
    rewrite E. eexists. split; [|split; [reflexivity|]].
    + unfold fp_init. apply store_good. exact I.
    + unfold fp_init, fp_store. cbn. rewrite I1. reflexivity.
Qed.

Lemma max_back f x y : wide f -> good f x -> good f y -> exists z, good f z /\ fp_max x (AFP y) = Ok z /\ fnum z = num_max (fnum x) (fnum y).
Proof.
  intros W G G'. unfold fp_max. rewrite (arith_eq f) by auto using max_ok. pose proof (wide_okf f W) as O.
  assert (C : num_max (fnum x) (fnum y) = fnum x \/ num_max (fnum x) (fnum y) = fnum y \/
              (num_max (fnum x) (fnum y) = NNaN false /\ nonnan (fnum x) = false)).
  { unfold num_max. destruct (fnum x), (fnum y); cbn; auto; repeat match goal with |- context [if ?b then _ else _] => destruct b end; auto. }
  destruct C as [E|[E|[E N]]].
  - exists x. rewrite E, init_fnum by assumption. auto.
  - exists y. rewrite E, init_fnum by assumption. auto.
  - assert (I1 : f_ieee f = true).
    { destruct (f_ieee f) eqn:IE; [reflexivity|]. destruct G as (_ & _ & N'). specialize (N' IE). exfalso. revert N.
      rewrite nonnan_fnum by exact N'. discriminate. }
    rewrite E. eexists. split; [|split; [reflexivity|]].
    + unfold fp_init. apply store_good. exact I.
    + unfold fp_init, fp_store. cbn. rewrite I1. reflexivity.
Qed.

Lemma fnum_inj f x y : wide f -> good f x -> good f y -> fnum x = fnum y -> x = y.
Proof. intros W G G' E. pose proof (wide_okf f W) as O. rewrite <- (init_fnum f x), <- (init_fnum f y), E by assumption. reflexivity. Qed.

Lemma C110_minmax_associative_pf : forall f x y w,
  wide f -> instance f x -> instance f y -> instance f w ->
  (exists z, bind (fp_min x (AFP y)) (fun m => fp_min m (AFP w)) = Ok z /\ bind (fp_min y (AFP w)) (fun m => fp_min x (AFP m)) = Ok z) /\
  (exists z, bind (fp_max x (AFP y)) (fun m => fp_max m (AFP w)) = Ok z /\ bind (fp_max y (AFP w)) (fun m => fp_max x (AFP m)) = Ok z).
Proof.
  intros f x y w W Ix Iy Iw. pose proof (wide_okf f W) as O.
  pose proof (inst_good f x W Ix) as G. pose proof (inst_good f y W Iy) as G'. pose proof (inst_good f w W Iw) as G''.
  pose proof (fnum_ok f x O G). pose proof (fnum_ok f y O G'). pose proof (fnum_ok f w O G''). split.
  - destruct (min_back f x y W G G') as (p & GP & -> & EP). destruct (min_back f y w W G' G'') as (q & GQ & -> & EQ). cbn [bind].
    destruct (min_back f p w W GP G'') as (r & GR & -> & ER). destruct (min_back f x q W G GQ) as (t & GT & -> & ET).
    exists r. split; [reflexivity|]. f_equal. apply (fnum_inj f); auto. rewrite ER, ET, EP, EQ. symmetry. now apply min_assoc.
  - destruct (max_back f x y W G G') as (p & GP & -> & EP). destruct (max_back f y w W G' G'') as (q & GQ & -> & EQ). cbn [bind].
    destruct (max_back f p w W GP G'') as (r & GR & -> & ER). destruct (max_back f x q W G GQ) as (t & GT & -> & ET).
    exists r. split; [reflexivity|]. f_equal. apply (fnum_inj f); auto. rewrite ER, ET, EP, EQ. symmetry. now apply max_assoc.
Qed.

Lemma C110_minmax_lattice_pf : forall f x y w,
  wide f -> instance f x -> instance f y -> instance f w -> fp_is_NaN x = false ->
  fp_min x (AFP x) = Ok x /\ fp_max x (AFP x) = Ok x /\
  bind (fp_max x (AFP y)) (fun m => fp_min x (AFP m)) = Ok x /\
  bind (fp_min x (AFP y)) (fun m => fp_max x (AFP m)) = Ok x /\
  (fp_is_NaN y = false -> fp_is_NaN w = false ->
   exists z, bind (fp_max y (AFP w)) (fun m => fp_min x (AFP m)) = Ok z /\
     bind (fp_min x (AFP y)) (fun p => bind (fp_min x (AFP w)) (fun q => fp_max p (AFP q))) = Ok z).
Proof.
  intros f x y w W Ix Iy Iw N. pose proof (wide_okf f W) as O. apply nonnan_fnum in N.
  pose proof (inst_good f x W Ix) as G. pose proof (inst_good f y W Iy) as G'. pose proof (inst_good f w W Iw) as G''.
  pose proof (fnum_ok f x O G). pose proof (fnum_ok f y O G'). pose proof (fnum_ok f w O G'').
  destruct (min_back f x y W G G') as (p & GP & HP & EP). destruct (max_back f x y W G G') as (q & GQ & HQ & EQ). rewrite HP, HQ. cbn [bind].
  split; [|split; [|split; [|split]]].
  - destruct (min_back f x x W G G) as (z & GZ & -> & EZ). f_equal. apply (fnum_inj f); auto. rewrite EZ. now apply min_idem.
  - destruct (max_back f x x W G G) as (z & GZ & -> & EZ). f_equal. apply (fnum_inj f); auto. rewrite EZ. now apply max_idem.
  - destruct (min_back f x q W G GQ) as (z & GZ & -> & EZ). f_equal. apply (fnum_inj f); auto. rewrite EZ, EQ. now apply min_absorb.
  - destruct (max_back f x p W G GP) as (z & GZ & -> & EZ). f_equal. apply (fnum_inj f); auto. rewrite EZ, EP. now apply max_absorb.
  - intros N' N''. apply nonnan_fnum in N', N''. destruct (max_back f y w W G' G'') as (r & GR & -> & ER). destruct (min_back f x w W G G'') as (t & GT & -> & ET). cbn [bind].
    destruct (min_back f x r W G GR) as (z & GZ & -> & EZ). destruct (max_back f p t W GP GT) as (v & GV & -> & EV).
    exists z. split; [reflexivity|]. f_equal. apply (fnum_inj f); auto. rewrite EZ, EV, ER, EP, ET. symmetry. now apply min_distr.
Qed.

Lemma C110_minmax_refuted_pf : exists f x y w nan,
  wide f /\ instance f x /\ instance f y /\ instance f w /\ instance f nan /\ fp_is_NaN nan = true /\
  bind (fp_max nan (AFP y)) (fun m => fp_min nan (AFP m)) = Ok y /\ fp_is_NaN y = false /\
  bind (fp_max nan (AFP w)) (fun m => fp_min x (AFP m)) = Ok w /\
  bind (fp_min x (AFP nan)) (fun p => bind (fp_min x (AFP w)) (fun q => fp_max p (AFP q))) = Ok x /\ x <> w.
Proof.
  exists (Fmt 5 10 RNE true), (fp_init (Fmt 5 10 RNE true) (NZero false)), (fp_init (Fmt 5 10 RNE true) (NRat false 1 1)),
    (fp_init (Fmt 5 10 RNE true) (NRat true 1 1)), (fp_init (Fmt 5 10 RNE true) (NNaN false)).
  split; [split; cbn; lia|]. split; [apply I_init; exact I|]. do 2 (split; [apply I_init; split; reflexivity|]). split; [apply I_init; exact I|].
  do 5 (split; [vm_compute; reflexivity|]). vm_compute. discriminate.
Qed.
