(** * Univariate densities integrate to one; the marginal likelihood is an integral. *)
From Coq Require Import Bool List Arith ZArith Reals Lra Lia Psatz.
From Coquelicot Require Import Coquelicot.
From Verif Require Import Base Mixings PartSpec MixFacts Univ UnivFacts GaussInt GammaInt DistFacts.
Import ListNotations.
Local Open Scope R_scope.

(** ** Specification *)

(** The logarithm of the Gamma function. *)
Definition lgam (a : R) : R := ln (Gamma a).

(** Integral over the half plane of means and positive variances. *)
Definition is_half_plane_int (f : R -> R -> R) (l : R) : Prop :=
  exists g, (forall v, 0 < v -> is_line_int (fun m => f m v) (g v)) /\ is_half_int g l.

(** ** Normal and inverse gamma *)
Lemma exp_normal : forall y mu sd, 0 < sd -> exp (normal_lpdf y mu sd) = gauss mu (sd * sd) y.
Proof.
  intros y mu sd Hs. unfold normal_lpdf, gauss. pose proof PI_RGT_0 as Hpi.
  replace (2 * PI * (sd * sd)) with ((2 * PI) * (sd * sd)) by ring.
  rewrite sqrt_mult_alt, sqrt_square by lra.
  match goal with |- exp ?a = _ => replace a with (- ((y - mu) * (y - mu) / (2 * (sd * sd))) + - (ln (2 * PI) / 2 + ln sd)) by (field; lra) end.
  rewrite exp_plus. unfold Rdiv at 3. f_equal. rewrite exp_Ropp. f_equal. rewrite exp_plus, exp_ln by lra. f_equal.
  rewrite <- (sqrt_square (exp (ln (2 * PI) / 2))) by (left; apply exp_pos). rewrite <- exp_plus.
  replace (ln (2 * PI) / 2 + ln (2 * PI) / 2) with (ln (2 * PI)) by field. rewrite exp_ln by lra. reflexivity.
Qed.

Lemma exp_lgam : forall a, exp (lgam a) = Gamma a.
Proof. intro a. unfold lgam. apply exp_ln, Gamma_pos. Qed.

Lemma inv_gamma_normalised : forall a b, 0 < a -> 0 < b -> is_half_int (fun v => exp (inv_gamma_lpdf lgam v a b)) 1.
Proof.
  intros a b Ha Hb. pose proof (half_scal _ (/ Gamma a) _ (inv_gamma_mass a b Ha Hb)) as H.
  rewrite Rinv_l in H by (pose proof (Gamma_pos a); lra).
  apply (half_ext (fun v => / Gamma a * exp (a * ln b - (a + 1) * ln v - b / v))); [|exact H].
  intros v Hv. unfold inv_gamma_lpdf. rewrite <- exp_lgam, <- exp_Ropp, <- exp_plus. f_equal. ring.
Qed.

Lemma gamma_normalised : forall a b, 0 < a -> 0 < b -> is_half_int (fun y => exp (gamma_lpdf lgam y a b)) 1.
Proof.
  intros a b Ha Hb. pose proof (half_scal _ (/ Gamma a) _ (gamma_mass a b Ha Hb)) as H.
  rewrite Rinv_l in H by (pose proof (Gamma_pos a); lra).
  apply (half_ext (fun v => / Gamma a * exp (a * ln b + (a - 1) * ln v - b * v))); [|exact H].
  intros v Hv. unfold gamma_lpdf. rewrite <- exp_lgam, <- exp_Ropp, <- exp_plus. f_equal. ring.
Qed.

Lemma normal_line : forall mu sd c, 0 < sd -> is_line_int (fun m => exp (normal_lpdf m mu sd + c)) (exp c).
Proof.
  intros mu sd c Hs. pose proof (line_scal _ (exp c) 1 (gauss_mass mu (sd * sd) ltac:(nra))) as H. rewrite Rmult_1_r in H.
  apply (line_ext (fun x => exp c * gauss mu (sd * sd) x)); [|exact H].
  intro x. rewrite exp_plus, exp_normal by exact Hs. ring.
Qed.

(** ** Normal-inverse-gamma *)
Lemma nig_normalised : forall h, valid h -> is_half_plane_int (fun m v => exp (nig_lpdf lgam h (mkLS m v))) 1.
Proof.
  intros h Hh. destruct Hh as (Hv & Ha & Hb). exists (fun v => exp (inv_gamma_lpdf lgam v (ng_shape h) (ng_scale h))). split.
  - intros v Pv. unfold nig_lpdf. cbn [ls_mean ls_var]. apply normal_line. apply sqrt_lt_R0, Rdiv_lt_0_compat; assumption.
  - apply inv_gamma_normalised; assumption.
Qed.

Lemma half_plane_scal : forall f c l, is_half_plane_int f l -> is_half_plane_int (fun m v => c * f m v) (c * l).
Proof.
  intros f c l (g & Hg & Hl). exists (fun v => c * g v). split; [|now apply half_scal].
  intros v Pv. now apply line_scal, Hg.
Qed.
Lemma half_plane_ext : forall f f' l, (forall m v, 0 < v -> f m v = f' m v) -> is_half_plane_int f l -> is_half_plane_int f' l.
Proof.
  intros f f' l E (g & Hg & Hl). exists g. split; [|exact Hl]. intros v Pv. apply (line_ext (fun m => f m v)); [intro; now apply E|now apply Hg].
Qed.

Lemma marginal_integral : forall h ys, valid h ->
  is_half_plane_int (fun m v => exp (nig_lpdf lgam h (mkLS m v) + sumR (map (norm_lpdf (mkLS m v)) ys))) (exp (log_marg lgam h ys)).
Proof.
  intros h ys Hh. pose proof (nig_normalised _ (nnig_post_valid h ys Hh)) as H.
  apply (half_plane_scal _ (exp (log_marg lgam h ys))) in H. rewrite Rmult_1_r in H.
  apply (half_plane_ext _ _ _ (fun m v Pv => eq_sym (eq_trans (f_equal exp (nnig_bayes lgam h ys (mkLS m v) Hh Pv)) (exp_plus _ _))) H).
Qed.

Lemma predictive_integral : forall h y, valid h ->
  is_half_plane_int (fun m v => exp (nig_lpdf lgam h (mkLS m v) + norm_lpdf (mkLS m v) y)) (exp (nnig_marg_lpdf lgam h y)).
Proof.
  intros h y Hh. 
  assert (V1 : valid (nnig_post h 1 (norm_op y true norm_stats0))) by (apply (nnig_post_valid h [y] Hh)).
  pose proof (nig_normalised _ V1) as H.
  apply (half_plane_scal _ (exp (nnig_marg_lpdf lgam h y))) in H. rewrite Rmult_1_r in H.
  refine (half_plane_ext _ _ _ _ H). intros m v Pv. cbn beta.
  rewrite (nnig_predictive lgam h y (mkLS m v) Hh Pv), <- exp_plus. f_equal. ring.
Qed.

Lemma nxig_normalised : forall h, 0 < nx_var h -> 0 < nx_shape h -> 0 < nx_scale h ->
  is_half_plane_int (fun m v => exp (nxig_lpdf lgam h (mkLS m v))) 1.
Proof.
  intros h Hv Ha Hb. exists (fun v => exp (inv_gamma_lpdf lgam v (nx_shape h) (nx_scale h))). split.
  - intros v Pv. unfold nxig_lpdf. cbn [ls_mean ls_var]. apply normal_line. now apply sqrt_lt_R0.
  - apply inv_gamma_normalised; assumption.
Qed.

Lemma half_plane_unique : forall f l l', is_half_plane_int f l -> is_half_plane_int f l' -> l = l'.
Proof.
  intros f l l' (g & Hg & Hl) (g' & Hg' & Hl'). apply (half_unique g); [exact Hl|].
  apply (half_ext g'); [|exact Hl']. intros v Pv. exact (line_unique _ _ _ (Hg' v Pv) (Hg v Pv)).
Qed.

Lemma posterior_predictive_ratio : forall h ys y J1 J0, valid h ->
  is_half_plane_int (fun m v => exp (nig_lpdf lgam h (mkLS m v) + sumR (map (norm_lpdf (mkLS m v)) (y :: ys)))) J1 ->
  is_half_plane_int (fun m v => exp (nig_lpdf lgam h (mkLS m v) + sumR (map (norm_lpdf (mkLS m v)) ys))) J0 ->
  0 < J0 /\ exp (nnig_marg_lpdf lgam (nnig_post h (cardZ ys) (stats_of ys)) y) = J1 / J0.
Proof.
  intros h ys y J1 J0 Hh H1 H0.
  rewrite (half_plane_unique _ _ _ H1 (marginal_integral h (y :: ys) Hh)), (half_plane_unique _ _ _ H0 (marginal_integral h ys Hh)).
  split; [apply exp_pos|]. rewrite <- (marg_chain lgam h ys y Hh), exp_plus. pose proof (exp_pos (log_marg lgam h ys)). field. lra.
Qed.

Lemma lgam_one : lgam 1 = 0.
Proof.
  assert (H : is_half_int (euler 1) 1).
  { intros eps He. exists (Rmin (/ 2) (eps / 2)), (Rmax 1 (- ln (eps / 2))).
    assert (M : 0 < Rmin (/ 2) (eps / 2)) by (apply Rmin_glb_lt; lra). pose proof (Rmin_l (/ 2) (eps / 2)). pose proof (Rmin_r (/ 2) (eps / 2)).
    pose proof (Rmax_l 1 (- ln (eps / 2))). pose proof (Rmax_r 1 (- ln (eps / 2))). split; [lra|].
    intros e b H3 H4 H5. exists (exp (- e) - exp (- b)). split.
    - apply (is_RInt_ext (fun t => exp (- t))).
      { intros x _. unfold euler. f_equal. ring. }
      replace (exp (- e) - exp (- b)) with (minus (- exp (- b)) (- exp (- e))).
      2:{ change (- exp (- b) - - exp (- e) = exp (- e) - exp (- b)). ring. }
      apply (is_RInt_derive (V:=R_CompleteNormedModule) (fun t => - exp (- t)) (fun t => exp (- t))).
      + intros x _. auto_derive; [trivial|ring].
      + intros x _. apply (ex_derive_continuous (K:=R_AbsRing) (V:=R_NormedModule)). auto_derive. trivial.
    - assert (exp (- b) < eps / 2). { rewrite <- (exp_ln (eps / 2)) by lra. apply exp_increasing. lra. }
      pose proof (exp_pos (- b)). pose proof (exp_ineq1_le (- e)). pose proof (exp_increasing (- e) 0 ltac:(lra)) as X. rewrite exp_0 in X.
      apply Rabs_def1; lra. }
  unfold lgam. rewrite (half_unique _ _ _ (Gamma_int 1 ltac:(lra)) H). apply ln_1.
Qed.
