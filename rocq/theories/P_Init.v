(** * C125: the state a component is initialised with is a mode of its prior. *)
From Coq Require Import ZArith Reals Lra Lia List.
From Coquelicot Require Import Coquelicot.
From Verif Require Import Base XReal Mixings Univ UnivFacts GaussInt GammaInt DistFacts UnivInt RealFacts MixFacts.
Import ListNotations.
Local Open Scope R_scope.
Set Implicit Arguments.

(** [s] is the only state with the largest value of [f] among the states with a
    positive variance. *)
Definition only_mode (f : uni_ls -> R) (s : uni_ls) : Prop :=
  0 < ls_var s /\ (forall s', 0 < ls_var s' -> f s' <= f s) /\
  (forall s', 0 < ls_var s' -> f s <= f s' -> s' = s).

(** Mode of a density on the positive numbers. *)
Definition only_mode_pos (f : R -> R) (x : R) : Prop :=
  0 < x /\ (forall y, 0 < y -> f y <= f x) /\ (forall y, 0 < y -> f x <= f y -> y = x).

Lemma ln_sub1_eq : forall x, 0 < x -> x - 1 <= ln x -> x = 1.
Proof.
  intros x Hx H. destruct (Req_dec (ln x) 0) as [E|N].
  - apply ln_inv; [assumption|lra|]. now rewrite ln_1.
  - pose proof (exp_ineq1 _ N) as K. rewrite exp_ln in K by assumption. lra.
Qed.
Lemma ln_sub1 : forall x, 0 < x -> ln x <= x - 1.
Proof.
  intros x Hx. destruct (Req_dec (ln x) 0) as [E|N].
  - assert (x = 1) by (apply ln_inv; [assumption|lra|now rewrite ln_1]). subst. rewrite ln_1. lra.
  - pose proof (exp_ineq1 _ N) as K. rewrite exp_ln in K by assumption. lra.
Qed.

(** With [c] for the coefficient of [- ln], the largest value is at [b / c]. *)
Lemma inv_gap : forall c b x, 0 < c -> 0 < b -> 0 < x ->
  (- c * ln (b / c) - b / (b / c)) - (- c * ln x - b / x) = c * (b / (c * x) - 1 - ln (b / (c * x))).
Proof.
  intros c b x Hc Hb Hx. assert (Hcx : 0 < c * x) by now apply Rmult_lt_0_compat.
  assert (L : forall u v, 0 < u -> 0 < v -> ln (u / v) = ln u - ln v).
  { intros u v Hu Hv. unfold Rdiv. rewrite ln_mult, ln_Rinv by (try apply Rinv_0_lt_compat; assumption). ring. }
  rewrite !L, ln_mult by assumption. field. lra.
Qed.

Lemma inv_mode : forall c b, 0 < c -> 0 < b -> only_mode_pos (fun x => - c * ln x - b / x) (b / c).
Proof.
  intros c b Hc Hb. assert (P : forall y, 0 < y -> 0 < b / (c * y)).
  { intros y Hy. apply Rdiv_lt_0_compat; [assumption|]. now apply Rmult_lt_0_compat. }
  split; [now apply Rdiv_lt_0_compat|]. split; intros y Hy.
  - pose proof (inv_gap Hc Hb Hy) as G. pose proof (ln_sub1 (P y Hy)) as L.
    pose proof (Rmult_le_pos c (b / (c * y) - 1 - ln (b / (c * y)))). lra.
  - intro H. pose proof (inv_gap Hc Hb Hy) as G. pose proof (ln_sub1 (P y Hy)) as L.
    assert (E : b / (c * y) = 1).
    { apply ln_sub1_eq; [now apply P|]. apply Rnot_lt_le. intro N.
      pose proof (Rmult_lt_0_compat c (b / (c * y) - 1 - ln (b / (c * y))) Hc). lra. }
    apply (f_equal (fun z => z * y)) in E. rewrite Rmult_1_l in E. rewrite <- E. field. split; lra.
Qed.

Lemma inv_gamma_mode : forall lg a b, 0 < a -> 0 < b -> only_mode_pos (fun v => inv_gamma_lpdf lg v a b) (b / (a + 1)).
Proof.
  intros lg a b Ha Hb. destruct (@inv_mode (a + 1) b) as (P & U & E); [lra|assumption|].
  split; [exact P|]. unfold inv_gamma_lpdf. split; intros y Hy.
  - pose proof (U y Hy). lra.
  - intro H. apply (E y Hy). lra.
Qed.

Lemma exp_mode : forall f x, only_mode_pos f x -> only_mode_pos (fun v => exp (f v)) x.
Proof.
  intros f x (P & U & E). split; [exact P|]. split; intros y Hy.
  - destruct (U y Hy) as [L|L]; [left; now apply exp_increasing|right; now rewrite L].
  - intro L. apply (E y Hy). destruct (Rle_lt_dec (f x) (f y)) as [K|K]; [exact K|]. apply exp_increasing in K. lra.
Qed.

Lemma normal_lpdf_top : forall y mu sd, 0 < sd -> normal_lpdf y mu sd <= normal_lpdf mu mu sd.
Proof.
  intros y mu sd Hs. unfold normal_lpdf. replace ((mu - mu) / sd) with 0 by (field; lra).
  pose proof (Rle_0_sqr ((y - mu) / sd)). unfold Rsqr in *. lra.
Qed.
Lemma normal_lpdf_top_eq : forall y mu sd, 0 < sd -> normal_lpdf mu mu sd <= normal_lpdf y mu sd -> y = mu.
Proof.
  intros y mu sd Hs. unfold normal_lpdf. replace ((mu - mu) / sd) with 0 by (field; lra). intro H.
  assert (E : ((y - mu) / sd) * ((y - mu) / sd) = 0).
  { pose proof (Rle_0_sqr ((y - mu) / sd)). unfold Rsqr in *. lra. }
  apply Rmult_integral in E. assert (D : (y - mu) / sd = 0) by (destruct E; assumption).
  apply (f_equal (fun z => z * sd)) in D. rewrite Rmult_0_l in D. replace ((y - mu) / sd * sd) with (y - mu) in D by (field; lra). lra.
Qed.

(** Independent mean and variance: the state is the mode of the joint prior
    density.  The two hierarchies with this prior share [initialize_state]. *)
Theorem C125_independent : forall lg p h, nxig_init p = Ok h ->
  only_mode (nxig_lpdf lg h) (uni_init_state (nx_mean h) (nx_shape h) (nx_scale h)).
Proof.
  intros lg p h H. assert (V : 0 < nx_var h /\ 0 < nx_shape h /\ 0 < nx_scale h).
  { destruct p as [m v a b|]; [|discriminate]. cbn [nxig_init] in H.
    destruct (lteb v 0) eqn:E1; [discriminate|]. destruct (lteb a 0) eqn:E2; [discriminate|]. destruct (lteb b 0) eqn:E3; [discriminate|].
    injection H as <-. cbn. repeat split; now apply lteb_false. }
  destruct V as (Hv & Ha & Hb). pose proof (sqrt_lt_R0 _ Hv) as Hs.
  destruct (inv_gamma_mode lg Ha Hb) as (P & U & E).
  unfold uni_init_state, nxig_lpdf. split; [exact P|]. cbn [ls_mean ls_var]. split; intros s' Hs'.
  - pose proof (normal_lpdf_top (ls_mean s') (nx_mean h) Hs). pose proof (U _ Hs'). cbv beta in *. lra.
  - intro L. pose proof (normal_lpdf_top (ls_mean s') (nx_mean h) Hs) as T. pose proof (U _ Hs') as K. cbv beta in *.
    destruct s' as [m v]. cbn [ls_mean ls_var] in *. f_equal.
    + apply (@normal_lpdf_top_eq m (nx_mean h) _ Hs). lra.
    + apply (E v Hs'). cbv beta. lra.
Qed.
Print Assumptions C125_independent.

Lemma nig_valid_init : forall p h, nig_init p = Ok h -> 0 < ng_vs h /\ 0 < ng_shape h /\ 0 < ng_scale h.
Proof.
  intros p h H. assert (C : forall h0, nig_check h0 = Ok h -> 0 < ng_vs h /\ 0 < ng_shape h /\ 0 < ng_scale h).
  { intros h0 H0. unfold nig_check in H0. destruct (lteb (ng_vs h0) 0) eqn:E1; [discriminate|].
    destruct (lteb (ng_shape h0) 0) eqn:E2; [discriminate|]. destruct (lteb (ng_scale h0) 0) eqn:E3; [discriminate|].
    injection H0 as <-. repeat split; now apply lteb_false. }
  destruct p as [m v a b|m s v a b|mu00 s al be a b a0|]; cbn [nig_init] in H; [now apply C in H|now apply C in H| |discriminate].
  destruct (lteb s 0) eqn:E1; [discriminate|]. destruct (lteb al 0) eqn:E2; [discriminate|]. destruct (lteb be 0) eqn:E3; [discriminate|].
  destruct (lteb a 0) eqn:E4; [discriminate|]. destruct (lteb b 0) eqn:E5; [discriminate|]. destruct (lteb a0 0) eqn:E6; [discriminate|].
  injection H as <-. cbn [ng_vs ng_shape ng_scale]. apply lteb_false in E1, E2, E3, E4, E5, E6.
  repeat split; [now apply Rdiv_lt_0_compat|assumption|now apply Rdiv_lt_0_compat].
Qed.

(** Mean given the variance: the variance is the mode of its marginal prior
    density and the mean the mode of the conditional one, whatever the variance. *)
Theorem C125_dependent : forall p h, nig_init p = Ok h ->
  let s := uni_init_state (ng_mean h) (ng_shape h) (ng_scale h) in
  (exists dens, (forall v, 0 < v -> is_line_int (fun m => exp (nig_lpdf lgam h (mkLS m v))) (dens v)) /\ only_mode_pos dens (ls_var s)) /\
  (forall v m, 0 < v -> nig_lpdf lgam h (mkLS m v) <= nig_lpdf lgam h (mkLS (ls_mean s) v)) /\
  (forall v m, 0 < v -> nig_lpdf lgam h (mkLS (ls_mean s) v) <= nig_lpdf lgam h (mkLS m v) -> m = ls_mean s).
Proof.
  intros p h H. apply nig_valid_init in H. destruct H as (Hv & Ha & Hb). cbn [ls_var ls_mean uni_init_state].
  assert (S : forall v, 0 < v -> 0 < sqrt (v / ng_vs h)) by (intros v V; apply sqrt_lt_R0; now apply Rdiv_lt_0_compat).
  split; [|split].
  - exists (fun v => exp (inv_gamma_lpdf lgam v (ng_shape h) (ng_scale h))). split.
    + intros v V. unfold nig_lpdf. cbn [ls_mean ls_var]. apply normal_line. now apply S.
    + exact (exp_mode (inv_gamma_mode lgam Ha Hb)).
  - intros v m V. unfold nig_lpdf. cbn [ls_mean ls_var]. pose proof (normal_lpdf_top m (ng_mean h) (S v V)). lra.
  - intros v m V L. unfold nig_lpdf in L. cbn [ls_mean ls_var] in L. apply (@normal_lpdf_top_eq m (ng_mean h) _ (S v V)). lra.
Qed.
Print Assumptions C125_dependent.

Lemma ln_sqrt_half : forall x, 0 < x -> ln (sqrt x) = ln x / 2.
Proof.
  intros x Hx. assert (E : ln x = ln (sqrt x * sqrt x)) by (f_equal; symmetry; apply sqrt_sqrt; lra).
  rewrite ln_mult in E; [lra| |]; now apply sqrt_lt_R0.
Qed.

(** It is never the mode of the joint density, which is at [scale / (shape + 3/2)]. *)
Lemma nig_joint_mode : forall lg h, 0 < ng_vs h -> 0 < ng_shape h -> 0 < ng_scale h ->
  only_mode (nig_lpdf lg h) (mkLS (ng_mean h) (ng_scale h / (ng_shape h + 3 / 2))).
Proof.
  intros lg h Hv Ha Hb. destruct (@inv_mode (ng_shape h + 3 / 2) (ng_scale h)) as (P & U & E); [lra|assumption|].
  assert (S : forall v, 0 < v -> 0 < sqrt (v / ng_vs h)) by (intros v V; apply sqrt_lt_R0; now apply Rdiv_lt_0_compat).
  assert (F : forall v, 0 < v -> nig_lpdf lg h (mkLS (ng_mean h) v) =
    (- (ng_shape h + 3 / 2) * ln v - ng_scale h / v) + (ln (ng_vs h) / 2 - ln (2 * PI) / 2 + ng_shape h * ln (ng_scale h) - lg (ng_shape h))).
  { intros v V. unfold nig_lpdf, normal_lpdf, inv_gamma_lpdf. cbn [ls_mean ls_var].
    rewrite ln_sqrt_half by now apply Rdiv_lt_0_compat. replace (ln (v / ng_vs h)) with (ln v - ln (ng_vs h))
      by (unfold Rdiv; rewrite ln_mult, ln_Rinv by (try apply Rinv_0_lt_compat; assumption); ring).
    pose proof (S v V). replace ((ng_mean h - ng_mean h) / sqrt (v / ng_vs h)) with 0 by (field; lra). field. lra. }
  split; [exact P|]. cbn [ls_mean ls_var].
  assert (T : forall s', 0 < ls_var s' -> nig_lpdf lg h s' <= nig_lpdf lg h (mkLS (ng_mean h) (ls_var s'))).
  { intros s' V. unfold nig_lpdf. cbn [ls_mean ls_var]. pose proof (normal_lpdf_top (ls_mean s') (ng_mean h) (S _ V)). lra. }
  split; intros s' V.
  - specialize (T s' V). rewrite (F _ V) in T. rewrite (F _ P). pose proof (U _ V). cbv beta in *. lra.
  - intro L. specialize (T s' V). rewrite (F _ P) in L. pose proof T as T2. rewrite (F _ V) in T2.
    pose proof (U _ V). assert (Ev : ls_var s' = ng_scale h / (ng_shape h + 3 / 2)) by (apply (E _ V); cbv beta in *; lra).
    destruct s' as [m v]. cbn [ls_mean ls_var] in *. subst v. f_equal.
    apply (@normal_lpdf_top_eq m (ng_mean h) _ (S _ V)). unfold nig_lpdf in L, T. cbn [ls_mean ls_var] in L, T.
    rewrite <- (F _ P) in L. unfold nig_lpdf in L. cbn [ls_mean ls_var] in L. lra.
Qed.

Theorem C125_joint_never : forall lg p h, nig_init p = Ok h ->
  ~ only_mode (nig_lpdf lg h) (uni_init_state (ng_mean h) (ng_shape h) (ng_scale h)) /\
  exists s, 0 < ls_var s /\ nig_lpdf lg h (uni_init_state (ng_mean h) (ng_shape h) (ng_scale h)) < nig_lpdf lg h s.
Proof.
  intros lg p h H. apply nig_valid_init in H. destruct H as (Hv & Ha & Hb).
  destruct (nig_joint_mode lg h Hv Ha Hb) as (P & U & E).
  assert (I : 0 < ls_var (uni_init_state (ng_mean h) (ng_shape h) (ng_scale h))).
  { cbn. apply Rdiv_lt_0_compat; lra. }
  assert (D : nig_lpdf lg h (uni_init_state (ng_mean h) (ng_shape h) (ng_scale h)) < nig_lpdf lg h (mkLS (ng_mean h) (ng_scale h / (ng_shape h + 3 / 2)))).
  { destruct (U _ I) as [L|L]; [exact L|]. exfalso. assert (Q := E _ I (Req_le _ _ (eq_sym L))).
    apply (f_equal ls_var) in Q. cbn [ls_var uni_init_state] in Q. unfold Rdiv in Q. apply Rmult_eq_reg_l in Q; [|lra].
    apply (f_equal Rinv) in Q. rewrite !Rinv_inv in Q. lra. }
  split.
  - intros (_ & T & _). specialize (T _ P). lra.
  - eexists. split; [exact P|exact D].
Qed.
Print Assumptions C125_joint_never.

Theorem C125_joint_refuted : exists p h lg, nig_init p = Ok h /\
  ~ only_mode (nig_lpdf lg h) (uni_init_state (ng_mean h) (ng_shape h) (ng_scale h)).
Proof.
  exists (NIGFixed 0 1 2 3), (mkNIG 0 1 2 3), lgam. assert (H : nig_init (NIGFixed 0 1 2 3) = Ok (mkNIG 0 1 2 3)).
  { cbn [nig_init]. unfold nig_check. cbn [ng_vs ng_shape ng_scale]. unfold lteb.
    repeat (destruct (Rle_dec _ _); [lra|]). reflexivity. }
  split; [exact H|]. exact (proj1 (C125_joint_never lgam _ H)).
Qed.
Print Assumptions C125_joint_refuted.

Example ex_C125 : only_mode (nxig_lpdf lgam (mkNxIG 5 2 3 8)) (mkLS 5 2).
Proof.
  replace (mkLS 5 2) with (uni_init_state 5 3 8) by (unfold uni_init_state; f_equal; field).
  apply (C125_independent lgam (NxIGFixed 5 2 3 8) (h := mkNxIG 5 2 3 8)). cbn [nxig_init]. unfold lteb.
  repeat (destruct (Rle_dec _ _); [lra|]). reflexivity.
Qed.
Example ex_C125_dependent : exists dens, (forall v, 0 < v -> is_line_int (fun m => exp (nig_lpdf lgam (mkNIG 5 2 3 8) (mkLS m v))) (dens v)) /\ only_mode_pos dens 2.
Proof.
  assert (H : nig_init (NIGFixed 5 2 3 8) = Ok (mkNIG 5 2 3 8)).
  { cbn [nig_init]. unfold nig_check. cbn [ng_vs ng_shape ng_scale]. unfold lteb. repeat (destruct (Rle_dec _ _); [lra|]). reflexivity. }
  pose proof (proj1 (C125_dependent _ H)) as (dens & A & B). exists dens. split; [exact A|].
  cbn [ls_var uni_init_state ng_shape ng_scale] in B. replace 2 with (8 / (3 + 1)) by field. exact B.
Qed.
