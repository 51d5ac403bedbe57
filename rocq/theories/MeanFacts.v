(** * First moments of the normal and gamma densities. *)
From Coq Require Import Reals Lra Lia.
From Coquelicot Require Import Coquelicot.
From Verif Require Import XReal Univ UnivFacts GaussInt GammaInt DistFacts GamFacts EscFacts UnivInt.
Local Open Scope R_scope.

Lemma gauss_scaled : forall m v x, 0 < v -> gauss m v x = / sqrt (2 * PI * v) * bell ((x - m) / sqrt (2 * v)).
Proof.
  intros m v x Hv. destruct (sqrt_2v v Hv) as (Hs & Hss). unfold gauss, bell. rewrite (Rmult_comm (/ _)). unfold Rdiv at 1. f_equal. f_equal. f_equal.
  set (s := sqrt (2 * v)) in *. rewrite <- Hss. field. lra.
Qed.

Lemma gauss_lim_p : forall m v, 0 < v -> is_lim (gauss m v) p_infty 0.
Proof.
  intros m v Hv. destruct (sqrt_2v v Hv) as (Hs & _).
  apply (is_lim_ext (fun x => / sqrt (2 * PI * v) * bell (/ sqrt (2 * v) * x + - (m / sqrt (2 * v))))).
  { intros x. rewrite gauss_scaled by exact Hv. do 2 f_equal. unfold Rdiv. ring. }
  replace (Finite 0) with (Rbar_mult (/ sqrt (2 * PI * v)) 0) by (simpl; f_equal; ring). apply is_lim_scal_l.
  apply (is_lim_comp bell _ p_infty 0 p_infty).
  - apply bell_lim.
  - apply (is_lim_plus (fun x => / sqrt (2 * v) * x) (fun _ => - (m / sqrt (2 * v))) p_infty p_infty (- (m / sqrt (2 * v)))).
    + evar_last; [apply is_lim_scal_l, is_lim_id|].
      { simpl. pose proof (Rinv_0_lt_compat _ Hs). destruct (Rle_dec 0 (/ sqrt (2 * v))) as [h|h]; [|lra].
        destruct (Rle_lt_or_eq_dec 0 (/ sqrt (2 * v)) h); [reflexivity|lra]. }
    + apply is_lim_const.
    + reflexivity.
  - exists 0. intros; discriminate.
Qed.

Lemma gauss_lim_m : forall m v, 0 < v -> is_lim (gauss m v) m_infty 0.
Proof.
  intros m v Hv. apply (is_lim_ext (fun x => gauss (- m) v (- x))).
  { intros x. unfold gauss. f_equal. f_equal. f_equal. f_equal. ring. }
  apply (is_lim_comp (gauss (- m) v) (fun x => - x) m_infty 0 p_infty).
  - apply gauss_lim_p, Hv.
  - apply (is_lim_opp (fun t => t) m_infty m_infty), is_lim_id.
  - exists 0. intros; discriminate.
Qed.

(** The mean of a normal distribution. *)
Lemma normal_mean : forall m v, 0 < v -> is_line_int (fun x => x * gauss m v x) m.
Proof.
  intros m v Hv. unfold is_line_int.
  pose (F := fun x => m * cdf m v x - v * gauss m v x).
  assert (Sq : 0 < sqrt (2 * PI * v)). { apply sqrt_lt_R0. pose proof PI_RGT_0. apply Rmult_lt_0_compat; lra. }
  assert (DG : forall x, is_derive (gauss m v) x (- ((x - m) / v) * gauss m v x)).
  { intro x. unfold gauss. auto_derive; [lra|]. unfold Rminus, Rdiv. generalize (exp (- ((x + - m) * (x + - m) * / (2 * v)))). intro e. field. split; lra. }
  assert (DF : forall x, is_derive F x (x * gauss m v x)).
  { intro x. unfold F. evar_last.
    - apply (is_derive_minus (V:=R_NormedModule) (fun x => m * cdf m v x) (fun x => v * gauss m v x)).
      + apply (is_derive_scal (cdf m v)). apply cdf_derive, Hv.
      + apply (is_derive_scal (gauss m v)). apply DG.
    - unfold minus, plus, opp, scal; simpl; unfold mult; simpl. field. lra. }
  assert (HD : forall x, Derive F x = x * gauss m v x) by (intros; apply is_derive_unique, DF).
  apply (is_RInt_gen_ext (Derive F)). { apply filter_forall. intros ab x _. apply HD. }
  replace m with ((m * (1 / 2) - v * 0) - (m * (- (1 / 2)) - v * 0)) at 1 by field.
  apply is_RInt_gen_Derive.
  - apply filter_forall. intros ab x _. eexists. apply DF.
  - apply filter_forall. intros ab x _. apply (continuous_ext (fun x => x * gauss m v x)); [intros; symmetry; apply HD|].
    apply (continuous_mult (K:=R_AbsRing) (fun x => x) (gauss m v)); [apply continuous_id|apply gauss_cont, Hv].
  - change (is_lim F m_infty (Finite (m * (- (1 / 2)) - v * 0))). apply (is_lim_minus (fun x => m * cdf m v x) (fun x => v * gauss m v x) m_infty (m * (- (1 / 2))) (v * 0)).
    + apply (is_lim_scal_l (cdf m v) m m_infty (- (1 / 2))), cdf_lim_m, Hv.
    + apply (is_lim_scal_l (gauss m v) v m_infty 0), gauss_lim_m, Hv.
    + reflexivity.
  - change (is_lim F p_infty (Finite (m * (1 / 2) - v * 0))). apply (is_lim_minus (fun x => m * cdf m v x) (fun x => v * gauss m v x) p_infty (m * (1 / 2)) (v * 0)).
    + apply (is_lim_scal_l (cdf m v) m p_infty (1 / 2)), cdf_lim_p, Hv.
    + apply (is_lim_scal_l (gauss m v) v p_infty 0), gauss_lim_p, Hv.
    + reflexivity.
Qed.

(** The mean of a gamma distribution with a rate. *)
Lemma gamma_mean : forall a b, 0 < a -> 0 < b -> is_half_int (fun y => y * exp (gamma_lpdf lgam y a b)) (a / b).
Proof.
  intros a b Ha Hb. pose proof (half_scal _ (a / b) _ (gamma_normalised (a + 1) b ltac:(lra) Hb)) as H. rewrite Rmult_1_r in H.
  refine (half_ext _ _ _ _ H). intros y Hy. cbn beta. unfold gamma_lpdf.
  assert (E : lgam (a + 1) = ln a + lgam a) by (unfold lgam; rewrite Gamma_succ by exact Ha; apply ln_mult; [exact Ha|apply Gamma_pos]).
  rewrite E. replace (a / b) with (exp (ln a - ln b)) by (unfold Rminus; rewrite exp_plus, exp_Ropp, !exp_ln by lra; reflexivity).
  replace y with (exp (ln y)) at 3 by (apply exp_ln, Hy). rewrite <- !exp_plus. f_equal. ring.
Qed.
