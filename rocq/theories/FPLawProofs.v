(** Proofs of the theorems stated in FPLawProps.v. *)
From Coq Require Import Lia ZArith QArith Qpower Qabs ZifyBool Lqa.
From Verif Require Import PyBase BVModel BVSpec BVFacts BVOps FPModel FPSpec FPRoundFacts FPPatFacts FPEncFacts FPDecFacts FPBracket FPQFacts FPRoundSpec FPInst FPArith FPMore FPProofs FPAlgFacts FPAlgProofs FPExFacts FPWideFacts FPLawSpec.
Open Scope Z_scope.

Lemma one_op_init f q z : wide f -> one_op f q z -> exists n, z = fp_init f n /\ nval n q.
Proof.
  intros W H. pose proof (wide_okf f W) as O.
  assert (NV : forall x a, instance f x -> fvalue x a -> nval (fnum x) a) by (intros x a Ix VA; apply (fnum_val f x a O (inst_good f x W Ix) VA)).
  destruct H as [x y a b z Ix Iy VA VB E|x y a b z Ix Iy VA VB E|x y a b z Ix Iy VA VB E|x y a b z Ix Iy VA VB NZ E|x y w a b c z Ix Iy Iw VA VB VC E|n q V].
  - unfold fp_add in E. rewrite (arith_eq f) in E by auto using add_ok, inst_good. injection E as <-. eexists. split; [reflexivity|]. apply nval_add; auto.
  - unfold fp_sub in E. rewrite (arith_eq f) in E by auto using sub_ok, inst_good. injection E as <-. eexists. split; [reflexivity|]. apply nval_sub; auto.
  - unfold fp_mul in E. rewrite (arith_eq f) in E by auto using mul_ok, inst_good. injection E as <-. eexists. split; [reflexivity|]. apply nval_mul; auto.
  - unfold fp_div in E. rewrite (arith_eq f) in E by auto using div_ok, inst_good. injection E as <-. eexists. split; [reflexivity|]. apply nval_div; auto.
  - pose proof (inst_good f x W Ix) as (F & _). pose proof (inst_good f y W Iy) as (F' & _). pose proof (inst_good f w W Iw) as (F'' & _).
    assert (N : nval (num_fma (mode_2_gmpy2 (f_mode f)) (fnum x) (fnum y) (fnum w)) (a * b + c)%Q) by (apply nval_add; auto using nval_mul).
    unfold fp_fma in E. cbn [fp_coerce] in E. rewrite F, F', F'', fmt_eqb_refl in E. cbn [negb bind] in E. injection E as <-.
    eexists. split; [|exact N]. apply op_store; [exact W|]. exact (nval_ok _ _ N).
  - exists n. split; [reflexivity|]. destruct n as [s|s|s|s n d]; cbn [num_value] in V; try contradiction; [now constructor|]. destruct V as (H1 & H2 & H3). now constructor.
Qed.

Lemma C110_exact_result_pf : forall f q q' z z',
  wide f -> one_op f q z -> one_op f q' z' -> (q == q')%Q -> ~ (q == 0)%Q -> z = z'.
Proof.
  intros f q q' z z' W H H' E NZ. destruct (one_op_init f q z W H) as (n & -> & N). destruct (one_op_init f q' z' W H') as (n' & -> & N').
  apply (init_value f n n' q N); [|exact NZ]. apply (nval_wd n' q'); [symmetry; exact E|exact N'].
Qed.

Lemma C110_exact_result_refuted_pf : exists f q q' z z',
  wide f /\ one_op f q z /\ one_op f q' z' /\ (q == q')%Q /\ z <> z'.
Proof.
  set (f := Fmt 5 10 RTN true). set (o := fp_init f (NRat false 1 1)). set (n := fp_init f (NZero false)).
  assert (IO : instance f o) by (apply I_init; split; reflexivity). assert (IN : instance f n) by (apply I_init; exact I).
  assert (VO : fvalue o 1) by (eexists; split; [vm_compute; reflexivity|vm_compute; reflexivity]).
  assert (VN : fvalue n 0) by (eexists; split; [vm_compute; reflexivity|vm_compute; reflexivity]).
  exists f, (1 - 1)%Q, (1 * 0 + 0)%Q. do 2 eexists. split; [split; cbn; lia|].
  split; [apply (op_sub f o o 1 1); auto; vm_compute; reflexivity|]. split; [apply (op_fma f o n n 1 0 0); auto; vm_compute; reflexivity|].
  split; [reflexivity|]. vm_compute. discriminate.
Qed.
