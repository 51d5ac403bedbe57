(** * C116: the hyperparameters and the total mass start at the means of their priors. *)
From Coq Require Import ZArith Reals Lra Lia List.
From Coquelicot Require Import Coquelicot.
From Verif Require Import Base XReal Mixings Univ UnivFacts GaussInt GammaInt DistFacts UnivInt RealFacts MixFacts MeanFacts.
Import ListNotations.
Local Open Scope R_scope.
Set Implicit Arguments.

(** The mean of a Normal law and of a Gamma law, as integrals. *)
Definition normal_mean_is (m v mean : R) : Prop := is_line_int (fun x => x * gauss m v x) mean.
Definition gamma_mean_is (a b mean : R) : Prop := is_half_int (fun y => y * exp (gamma_lpdf lgam y a b)) mean.

Ltac nn H := match type of H with (if lteb ?x ?y then _ else _) = _ =>
  let E := fresh "E" in destruct (lteb x y) eqn:E; [discriminate|]; apply lteb_false in E end.

Theorem C116_ngg : forall mu00 sig200 alpha00 beta00 a00 b00 alpha0 h,
  nig_init (NIGNgg mu00 sig200 alpha00 beta00 a00 b00 alpha0) = Ok h ->
  normal_mean_is mu00 sig200 (ng_mean h) /\ gamma_mean_is alpha00 beta00 (ng_vs h) /\
  gamma_mean_is a00 b00 (ng_scale h) /\ ng_shape h = alpha0.
Proof.
  intros mu00 s al be a b a0 h H. cbn [nig_init] in H. do 6 nn H. injection H as <-. cbn [ng_mean ng_vs ng_shape ng_scale].
  split; [apply normal_mean; assumption|]. split; [apply gamma_mean; assumption|].
  split; [apply gamma_mean; assumption|reflexivity].
Qed.
Print Assumptions C116_ngg.

Theorem C116_normal_mean : forall mu00 sig200 vs shape scale h, 0 < sig200 ->
  nig_init (NIGMean mu00 sig200 vs shape scale) = Ok h ->
  normal_mean_is mu00 sig200 (ng_mean h) /\ ng_vs h = vs /\ ng_shape h = shape /\ ng_scale h = scale.
Proof.
  intros mu00 s v a b h Hs H. cbn [nig_init] in H. unfold nig_check in H. cbn [ng_mean ng_vs ng_shape ng_scale] in H.
  do 3 nn H. injection H as <-. cbn. split; [apply normal_mean; assumption|]. repeat split.
Qed.
Print Assumptions C116_normal_mean.

(** Fixed values are the ones used. *)
Theorem C116_fixed : forall m v a b,
  (forall h, nig_init (NIGFixed m v a b) = Ok h -> ng_mean h = m /\ ng_vs h = v /\ ng_shape h = a /\ ng_scale h = b) /\
  (forall h, nxig_init (NxIGFixed m v a b) = Ok h -> nx_mean h = m /\ nx_var h = v /\ nx_shape h = a /\ nx_scale h = b).
Proof.
  intros m v a b. split; intros h H.
  - cbn [nig_init] in H. unfold nig_check in H. cbn [ng_mean ng_vs ng_shape ng_scale] in H. do 3 nn H. injection H as <-. repeat split.
  - cbn [nxig_init] in H. do 3 nn H. injection H as <-. repeat split.
Qed.
Print Assumptions C116_fixed.

Theorem C116_total_mass : forall s,
  (forall a b s', dp_init (DPGamma a b) s = Ok s' -> gamma_mean_is a b (dp_tot s')) /\
  (forall m s', dp_init (DPFixed m) s = Ok s' -> dp_tot s' = m).
Proof.
  intros s. split.
  - intros a b s' H. cbn [dp_init] in H. do 2 nn H. injection H as <-. cbn. apply gamma_mean; assumption.
  - intros m s' H. cbn [dp_init] in H. nn H. injection H as <-. reflexivity.
Qed.
Print Assumptions C116_total_mass.

Theorem C116_mixing_fixed :
  (forall t d s, py_init (PYFixed t d) = Ok s -> py_str s = t /\ py_dis s = d) /\
  (forall l g s s', mfm_init (MFMFixed l g) s = Ok s' -> mf_lam s' = l /\ mf_gam s' = g).
Proof.
  split.
  - intros t d s H. cbn [py_init] in H. nn H.
    destruct (gtb 0 d || lteb 1 d)%bool; [discriminate|]. injection H as <-. split; reflexivity.
  - intros l g s s' H. cbn [mfm_init] in H. do 2 nn H. injection H as <-. split; reflexivity.
Qed.
Print Assumptions C116_mixing_fixed.

(** The means are determined: no other start satisfies the statements. *)
Theorem C116_unique : (forall m v x y, normal_mean_is m v x -> normal_mean_is m v y -> x = y) /\
  (forall a b x y, gamma_mean_is a b x -> gamma_mean_is a b y -> x = y).
Proof.
  split.
  - intros m v x y. apply line_unique.
  - intros a b x y. apply half_unique.
Qed.
Print Assumptions C116_unique.

Example C116_example : exists h s,
  nig_init (NIGNgg 1 4 3 2 5 4 2) = Ok h /\ ng_mean h = 1 /\ ng_vs h = 3 / 2 /\ ng_scale h = 5 / 4 /\
  gamma_mean_is 3 2 (3 / 2) /\ ~ gamma_mean_is 3 2 (2 / 3) /\
  dp_init (DPGamma 4 2) (mkDp 7 None) = Ok s /\ dp_tot s = 2.
Proof.
  exists (mkNIG 1 (3 / 2) 2 (5 / 4)), (mkDp (4 / 2) None).
  assert (F : forall x, 0 < x -> lteb x 0 = false) by (intros; apply lteb_false; assumption).
  split; [cbn [nig_init]; rewrite !F by lra; reflexivity|]. split; [reflexivity|]. split; [reflexivity|]. split; [reflexivity|].
  assert (M : gamma_mean_is 3 2 (3 / 2)) by (apply gamma_mean; lra).
  split; [exact M|]. split; [intros N; generalize (proj2 C116_unique _ _ _ _ M N); lra|].
  split; [cbn [dp_init]; rewrite !F by lra; reflexivity|cbn; lra].
Qed.
