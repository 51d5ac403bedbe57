(** * One-dimensional steps of the multivariate integrals. *)
From Coq Require Import Reals Lra.
From Verif Require Import Univ GammaInt UnivInt StudentInt GaussInt DistFacts.
Local Open Scope R_scope.

Lemma exp_half_ln : forall x, 0 < x -> exp (ln x / 2) = sqrt x.
Proof.
  intros x Hx. rewrite <- (sqrt_square (exp (ln x / 2))) by (left; apply exp_pos). rewrite <- exp_plus.
  replace (ln x / 2 + ln x / 2) with (ln x) by field. now rewrite exp_ln.
Qed.

Lemma student_step : forall s a t c, 0 < s -> 0 < a -> 0 < t ->
  is_line_int (fun x => exp (lgam (s + 1 / 2) - lgam s - ln PI / 2 + ln a / 2 - ln t / 2
                             - (s + 1 / 2) * ln (1 + a * ((x - c) * (x - c)) / t))) 1.
Proof.
  intros s a t c Hs Ha Ht. pose proof (sqrt_lt_R0 a Ha) as Qa. pose proof (sqrt_lt_R0 t Ht) as Qt.
  pose proof PI_RGT_0 as HPI. pose proof (sqrt_lt_R0 PI HPI) as Hp.
  assert (Hc : 0 < sqrt t / sqrt a) by now apply Rdiv_lt_0_compat.
  pose proof (half_mass_pos s) as Hm.
  pose proof (line_scal _ (/ (2 * half_mass s)) _ (cau_mass s Hs c (sqrt t / sqrt a) Hc)) as H.
  rewrite Rinv_l in H by lra. refine (line_ext _ _ _ _ H). intro x. cbn beta.
  unfold cau, half_mass.
  replace ((x - c) / (sqrt t / sqrt a) * ((x - c) / (sqrt t / sqrt a))) with (a * ((x - c) * (x - c)) / t).
  2:{ rewrite <- (sqrt_sqrt t) at 1 by lra. rewrite <- (sqrt_sqrt a) at 1 by lra. field. lra. }
  unfold Rminus. rewrite !exp_plus, !exp_Ropp, !exp_lgam, !exp_half_ln by lra.
  set (L := ln (1 + _)). replace (- (s + 1 / 2) * L) with (- ((s + 1 / 2) * L)) by ring. rewrite exp_Ropp.
  pose proof (Gamma_pos (s + 1 / 2)). pose proof (Gamma_pos s). pose proof (exp_pos ((s + 1 / 2) * L)).
  field. repeat split; lra.
Qed.

(** The first pivot of a Wishart matrix. *)
Lemma pivot_step : forall s r c, 0 < s -> 0 < r ->
  is_half_int (fun a => exp (c + (s - 1) * ln a - r * a)) (exp (c + lgam s - s * ln r)).
Proof.
  intros s r c Hs Hr. pose proof (half_scal _ (exp (c - s * ln r)) _ (gamma_mass s r Hs Hr)) as H.
  replace (exp (c + lgam s - s * ln r)) with (exp (c - s * ln r) * Gamma s).
  2:{ rewrite <- exp_lgam, <- exp_plus. f_equal. ring. }
  refine (half_ext _ _ _ _ H). intros a Pa. cbn beta. rewrite <- exp_plus. f_equal. ring.
Qed.
