(** Minimum and maximum of exact numbers as the meet and join of a total order in which -0 is below +0 (for FPMinProofs.v). *)
From Coq Require Import Lia ZArith QArith Bool.
From Verif Require Import FPModel FPSpec.
Open Scope Z_scope.

Definition nonnan (x : num) : bool := match x with NNaN _ => false | _ => true end.
Definition nle (x y : num) : bool :=
  match x, y with NZero s, NZero s' => s || negb s' | _, _ => cmp_le (num_cmp x y) end.

Lemma min_nle x y : nonnan x = true -> nonnan y = true -> num_min x y = if nle x y then x else y.
Proof. destruct x as [|s|s|s n d], y as [|s'|s'|s' n' d']; cbn [nonnan]; intros; try discriminate; try reflexivity. destruct s, s'; reflexivity. Qed.
Lemma max_nle x y : nonnan x = true -> nonnan y = true -> num_max x y = if nle x y then y else x.
Proof. destruct x as [|s|s|s n d], y as [|s'|s'|s' n' d']; cbn [nonnan]; intros; try discriminate; try reflexivity. destruct s, s'; reflexivity. Qed.

Lemma rat_le a d b e : 0 < d -> 0 < e -> cmp_le (Some (a * e ?= b * d)) = true <-> (Qmake a (Z.to_pos d) <= Qmake b (Z.to_pos e))%Q.
Proof.
  intros Hd He. unfold Qle. cbn [Qnum Qden]. rewrite !Z2Pos.id by assumption. cbn [cmp_le].
  destruct (Z.compare_spec (a * e) (b * d)); split; intros; try reflexivity; try discriminate; lia.
Qed.

Lemma sgnz_sign (s : bool) n : 0 < n -> if s then sgnz s n < 0 else 0 < sgnz s n.
Proof. destruct s; cbn [sgnz]; lia. Qed.

Lemma nle_total x y : nonnan x = true -> nonnan y = true -> nle x y = false -> nle y x = true.
Proof.
  destruct x as [|s|s|s n d], y as [|s'|s'|s' n' d']; cbn [nonnan]; intros A B; try discriminate;
    unfold nle; cbn [num_cmp]; try (destruct s; cbn; congruence); try (destruct s'; cbn; congruence); try (destruct s, s'; cbn; congruence).
  rewrite (Z.compare_antisym (sgnz s n * d')). destruct (sgnz s n * d' ?= sgnz s' n' * d); cbn; congruence.
Qed.

Lemma nle_trans x y z : num_ok x -> num_ok y -> num_ok z -> nle x y = true -> nle y z = true -> nle x z = true.
Proof.
  destruct x as [|s|s|s n d], y as [|s'|s'|s' n' d'], z as [|t|t|t m e]; cbn [num_ok]; intros X Y Z; unfold nle; cbn [num_cmp];
    try (intros; cbn in *; congruence);
    try (destruct s; cbn; congruence); try (destruct s'; cbn; congruence); try (destruct t; cbn; congruence);
    try (destruct s, s'; cbn; congruence); try (destruct s, t; cbn; congruence); try (destruct s', t; cbn; congruence);
    try (destruct s, s', t; cbn; congruence).
  - destruct s', t; try (cbn; congruence). intros _. pose proof (Z.mul_pos_pos n' e). pose proof (Z.mul_pos_pos m d'). cbn [sgnz].
    destruct (Z.compare_spec (n' * e) (- m * d')); cbn; try congruence; lia.
  - destruct s, t; try (cbn; congruence). intros _ _. pose proof (Z.mul_pos_pos n e). pose proof (Z.mul_pos_pos m d). cbn [sgnz].
    destruct (Z.compare_spec (- n * e) (m * d)); cbn; try congruence; lia.
  - destruct s, s'; try (cbn; congruence). pose proof (Z.mul_pos_pos n d'). pose proof (Z.mul_pos_pos n' d). cbn [sgnz].
    destruct (Z.compare_spec (n * d') (- n' * d)); cbn; try congruence; lia.
  - intros H K. apply rat_le in H; try lia. apply rat_le in K; try lia. apply rat_le; try lia. eapply Qle_trans; eassumption.
Qed.

Lemma nle_refl x : nonnan x = true -> nle x x = true.
Proof. intros N. destruct (nle x x) eqn:E; [reflexivity|]. rewrite <- E. now apply nle_total. Qed.

Lemma min_nn x y : nonnan x = true -> nonnan y = true -> nonnan (num_min x y) = true.
Proof. intros. rewrite min_nle by assumption. now destruct (nle x y). Qed.
Lemma max_nn x y : nonnan x = true -> nonnan y = true -> nonnan (num_max x y) = true.
Proof. intros. rewrite max_nle by assumption. now destruct (nle x y). Qed.

(** Decides equations between minima and maxima of three numbers by the order of the numbers. *)
Ltac by_order x y w :=
  rewrite ?min_nle, ?max_nle by auto using min_nn, max_nn;
  repeat (match goal with |- context [nle ?a ?b] =>
            lazymatch a with context [if _ then _ else _] => fail | _ => lazymatch b with context [if _ then _ else _] => fail | _ => destruct (nle a b) eqn:? end end
          end; cbn iota);
  try reflexivity; try congruence.

Lemma min_assoc_nn x y w : num_ok x -> num_ok y -> num_ok w -> nonnan x = true -> nonnan y = true -> nonnan w = true ->
  num_min (num_min x y) w = num_min x (num_min y w).
Proof.
  intros OX OY OW X Y W. by_order x y w.
  all: exfalso; repeat match goal with H : nle ?a ?b = false |- _ => pose proof (nle_total a b ltac:(assumption) ltac:(assumption) H); revert H end; intros;
    match goal with H : nle ?a ?b = false |- _ => assert (nle a b = true) by eauto using nle_trans; congruence end.
Qed.
Lemma max_assoc_nn x y w : num_ok x -> num_ok y -> num_ok w -> nonnan x = true -> nonnan y = true -> nonnan w = true ->
  num_max (num_max x y) w = num_max x (num_max y w).
Proof.
  intros OX OY OW X Y W. by_order x y w.
  all: exfalso; repeat match goal with H : nle ?a ?b = false |- _ => pose proof (nle_total a b ltac:(assumption) ltac:(assumption) H); revert H end; intros;
    match goal with H : nle ?a ?b = false |- _ => assert (nle a b = true) by eauto using nle_trans; congruence end.
Qed.

Lemma min_assoc x y w : num_ok x -> num_ok y -> num_ok w -> num_min (num_min x y) w = num_min x (num_min y w).
Proof.
  intros OX OY OW. destruct (nonnan x) eqn:X, (nonnan y) eqn:Y, (nonnan w) eqn:W.
  - now apply min_assoc_nn.
  - pose proof (min_nn x y X Y) as N. destruct w; try discriminate. transitivity (num_min x y); [now destruct (num_min x y)|]. destruct y; reflexivity || discriminate.
  - destruct y; try discriminate. destruct x; try discriminate; destruct w; try discriminate; reflexivity.
  - destruct y; try discriminate. destruct w; try discriminate. destruct x; try discriminate; reflexivity.
  - pose proof (min_nn y w Y W) as N. destruct x; try discriminate. transitivity (num_min y w); [|now destruct (num_min y w)]. destruct y; reflexivity || discriminate.
  - destruct x; try discriminate. destruct w; try discriminate. destruct y; try discriminate; reflexivity.
  - destruct x; try discriminate. destruct y; try discriminate. destruct w; try discriminate; reflexivity.
  - destruct x; try discriminate. destruct y; try discriminate. destruct w; try discriminate. reflexivity.
Qed.
Lemma max_assoc x y w : num_ok x -> num_ok y -> num_ok w -> num_max (num_max x y) w = num_max x (num_max y w).
Proof.
  intros OX OY OW. destruct (nonnan x) eqn:X, (nonnan y) eqn:Y, (nonnan w) eqn:W.
  - now apply max_assoc_nn.
  - pose proof (max_nn x y X Y) as N. destruct w; try discriminate. transitivity (num_max x y); [now destruct (num_max x y)|]. destruct y; reflexivity || discriminate.
  - destruct y; try discriminate. destruct x; try discriminate; destruct w; try discriminate; reflexivity.
  - destruct y; try discriminate. destruct w; try discriminate. destruct x; try discriminate; reflexivity.
  - pose proof (max_nn y w Y W) as N. destruct x; try discriminate. transitivity (num_max y w); [|now destruct (num_max y w)]. destruct y; reflexivity || discriminate.
  - destruct x; try discriminate. destruct w; try discriminate. destruct y; try discriminate; reflexivity.
  - destruct x; try discriminate. destruct y; try discriminate. destruct w; try discriminate; reflexivity.
  - destruct x; try discriminate. destruct y; try discriminate. destruct w; try discriminate. reflexivity.
Qed.

Lemma min_idem x : nonnan x = true -> num_min x x = x.
Proof. intros. rewrite min_nle by assumption. now destruct (nle x x). Qed.
Lemma max_idem x : nonnan x = true -> num_max x x = x.
Proof. intros. rewrite max_nle by assumption. now destruct (nle x x). Qed.
Lemma min_absorb x y : nonnan x = true -> num_min x (num_max x y) = x.
Proof.
  intros X. destruct (nonnan y) eqn:Y.
  - rewrite (max_nle x y) by assumption. destruct (nle x y) eqn:E; [|now apply min_idem]. rewrite min_nle, E by assumption. reflexivity.
  - destruct y; try discriminate. transitivity (num_min x x); [|now apply min_idem]. destruct x; reflexivity || discriminate.
Qed.
Lemma max_absorb x y : nonnan x = true -> num_max x (num_min x y) = x.
Proof.
  intros X. destruct (nonnan y) eqn:Y.
  - rewrite (min_nle x y) by assumption. destruct (nle x y) eqn:E; [now apply max_idem|]. rewrite max_nle, E by assumption. reflexivity.
  - destruct y; try discriminate. transitivity (num_max x x); [|now apply max_idem]. destruct x; reflexivity || discriminate.
Qed.
Lemma min_distr x y w : num_ok x -> num_ok y -> num_ok w -> nonnan x = true -> nonnan y = true -> nonnan w = true ->
  num_min x (num_max y w) = num_max (num_min x y) (num_min x w).
Proof.
  intros OX OY OW X Y W. by_order x y w.
  all: rewrite max_nle by assumption; match goal with |- context [nle ?a ?b] => destruct (nle a b) eqn:? end; try reflexivity; try congruence.
  all: exfalso; repeat match goal with H : nle ?a ?b = false |- _ => pose proof (nle_total a b ltac:(assumption) ltac:(assumption) H); revert H end; intros;
    match goal with H : nle ?a ?b = false |- _ => assert (nle a b = true) by eauto using nle_trans, nle_refl; congruence end.
Qed.
