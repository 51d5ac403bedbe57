(** * The multivariate hierarchies over the reals.

    Model of src/hierarchies/likelihoods/{multi_norm,uni_lin_reg}_likelihood.cc,
    likelihoods/states/multi_ls_state.h, priors/{nw,mnig}_prior_model.cc,
    updaters/{nnw,mnig}_updater.cc, {nnw,lin_reg_uni}_hierarchy.h and the
    multivariate densities and generators of src/utils/distributions.cc.
    Functions only.

    Doubles are reals, matrices are those of mathcomp with real entries.  All
    vectors are columns; Eigen's row vectors are their transposes.  Dimensions
    are fixed by the types, so the dimension checks of the initializers are left
    out.  Stan's and Eigen's routines are written out from their reference:
    [LLT(A).matrixL()] is the lower-triangular factor [chol], [inverse_spd]
    throws unless the matrix is symmetric positive definite.  [lg] is the
    log-gamma function and stays arbitrary. *)
From Coq Require Import String ZArith Reals.
From mathcomp Require Import all_ssreflect all_algebra.
From Verif Require Import Base Mixings Univ RealField MatLib.
Set Implicit Arguments.
Unset Strict Implicit.
Unset Printing Implicit Defensive.
Import GRing.Theory.
Local Open Scope ring_scope.

(** ** Eigen and Stan *)

(** The constant 0.5. *)
Definition hf : R := 2%:R^-1.

Definition llt_L d (A : 'M[R]_d) : 'M[R]_d := chol sqrt A.
Definition llt_U d (A : 'M[R]_d) : 'M[R]_d := (llt_L A)^T.
(** [LLT::solve]: forward, then backward substitution. *)
Definition llt_solve d e (A : 'M[R]_d) (B : 'M[R]_(d, e)) : 'M[R]_(d, e) :=
  invmx (llt_U A) *m (invmx (llt_L A) *m B).
Definition diag_logsum d (C : 'M[R]_d) : R := \sum_i ln (C i i).
Definition sqnorm d (v : 'cV[R]_d) : R := dot v v.

(** Positive pivots of the factorisation. *)
Fixpoint pivots_pos (d : nat) : 'M[R]_d -> bool :=
  match d return 'M[R]_d -> bool with
  | 0%N => fun _ => true
  | d'.+1 => fun A : 'M[R]_(1 + d') =>
      let a := ulsubmx A 0 0 in
      let b := dlsubmx A in
      (0 < a) && pivots_pos (drsubmx A - a^-1 *: (b *m b^T))
  end.
Definition inverse_spd d (A : 'M[R]_d) : res 'M[R]_d :=
  if A^T != A then Throw "m is not symmetric"
  else if pivots_pos A then Ok (invmx A) else Throw "matrix not positive definite".
(** eigen_utils.cc:80-88; [isApprox] is taken as equality. *)
Definition check_spd d (A : 'M[R]_d) : res unit :=
  if A^T != A then Throw "Matrix is not symmetric"
  else if (d == 0)%N then Throw "Matrix rows must be positive"
  else if pivots_pos A then Ok tt else Throw "Matrix is not positive definite".

Definition stan_mvn_prec_lpdf d (y mean : 'cV[R]_d) (P : 'M[R]_d) : R :=
  - (d%:R * hf * ln (2%:R * PI)) + hf * ln (\det P) - hf * quad P (y - mean).
Definition stan_mvn_lpdf d (y mean : 'cV[R]_d) (S : 'M[R]_d) : R :=
  - (d%:R * hf * ln (2%:R * PI)) - hf * ln (\det S) - hf * quad (invmx S) (y - mean).
Definition lmgamma (lg : R -> R) (d : nat) (x : R) : R :=
  (d * d.-1)%:R / 4%:R * ln PI + \sum_(j < d) lg (x - j%:R * hf).
Definition stan_wishart_lpdf (lg : R -> R) d (W : 'M[R]_d) (nu : R) (S : 'M[R]_d) : R :=
  - (d%:R * hf * nu * ln 2%:R) - lmgamma lg d (nu * hf) - nu * hf * ln (\det S)
  - hf * \tr (invmx S *m W) + (nu - d%:R - 1) * hf * ln (\det W).
Definition stan_inv_wishart_lpdf (lg : R -> R) d (W : 'M[R]_d) (nu : R) (S : 'M[R]_d) : R :=
  nu * hf * ln (\det S) - d%:R * hf * nu * ln 2%:R - lmgamma lg d (nu * hf)
  - (nu + d%:R + 1) * hf * ln (\det W) - hf * \tr (S *m invmx W).

(** Multivariate generators of Stan, on the state of the scalar ones. *)
Record mgen (G : gen) : Type := mkMgen {
  g_wishart : forall d, R -> 'M[R]_d -> Gs G -> 'M[R]_d * Gs G;
  g_inv_wishart : forall d, R -> 'M[R]_d -> Gs G -> 'M[R]_d * Gs G;
  g_mvn : forall d, 'cV[R]_d -> 'M[R]_d -> Gs G -> 'cV[R]_d * Gs G;
  g_mvn_prec : forall d, 'cV[R]_d -> 'M[R]_d -> Gs G -> 'cV[R]_d * Gs G
}.

(** ** distributions.cc *)

Definition neg_log_sqrt_two_pi : R := - ln (sqrt (2%:R * PI)).

(** distributions.cc:17-25. *)
Definition mvn_prec_lpdf d (datum mean : 'cV[R]_d) (prec_chol : 'M[R]_d) (prec_logdet : R) : R :=
  let base := hf * prec_logdet + neg_log_sqrt_two_pi * d%:R in
  let e := hf * sqnorm (prec_chol^T *m (datum - mean)) in
  base - e.

(** Squared norms of the rows. *)
Definition row_sqnorm n d (M : 'M[R]_(n, d)) : 'cV[R]_n := \col_i sqnorm (row i M)^T.

(** distributions.cc:27-40. *)
Definition mvn_prec_lpdf_grid n d (data : 'M[R]_(n, d)) (mean : 'cV[R]_d) (prec_chol : 'M[R]_d)
    (prec_logdet : R) : 'cV[R]_n :=
  let e := hf *: row_sqnorm ((\matrix_(i, j) (data i j - mean j 0)) *m prec_chol) in
  let base := const_mx (1 * prec_logdet * hf + neg_log_sqrt_two_pi * d%:R) in
  base - e.

(** [n] draws of [normal_rng(0, 1)], as a vector. *)
Fixpoint std_normals (G : gen) (n : nat) (r : Gs G) : seq R * Gs G :=
  match n with
  | 0%N => ([::], r)
  | n'.+1 => let '(z, r1) := g_norm G 0 1 r in
             let '(zs, r2) := std_normals n' r1 in (z :: zs, r2)
  end.
Definition colv n (l : seq R) : 'cV[R]_n := \col_i nth 0 l i.

(** distributions.cc:42-52. *)
Definition mvn_diag_rng (G : gen) d (mean cov_diag : 'cV[R]_d) (r : Gs G) : 'cV[R]_d * Gs G :=
  let '(zs, r1) := std_normals d r in
  (\col_i (nth 0 zs i * sqrt (cov_diag i 0)) + mean, r1).

(** distributions.cc:54-70; the factorisation argument is [LLT(prec)]. *)
Definition mvn_prec_chol_rng (G : gen) d (mean : 'cV[R]_d) (prec : 'M[R]_d) (r : Gs G) : 'cV[R]_d * Gs G :=
  let '(zs, r1) := std_normals d r in
  (mean + invmx (llt_U prec) *m colv d zs, r1).

(** distributions.cc:72-84. *)
Definition mvn_woodbury_chol_lpdf p q (datum mean sigma_diag_inverse : 'cV[R]_p) (wood_factor : 'M[R]_(q, p))
    (cov_logdet : R) : R :=
  let x := datum - mean in
  let e := - hf * (dot x (diag_mx sigma_diag_inverse^T *m x) - sqnorm (wood_factor *m x)) in
  let base := - hf * cov_logdet + neg_log_sqrt_two_pi * p%:R in
  base + e.

(** distributions.cc:99-118. *)
Definition wood_chol_and_logdet p q (sigma_diag_inverse : 'cV[R]_p) (lambda : 'M[R]_(p, q)) : 'M[R]_(q, p) * R :=
  let D := diag_mx sigma_diag_inverse^T in
  let temp_chol := invmx (llt_L (lambda^T *m D *m lambda + 1%:M)) in
  let cov_logdet := - 2%:R * diag_logsum temp_chol - \sum_i ln (sigma_diag_inverse i 0) in
  (temp_chol *m lambda^T *m D, cov_logdet).

(** distributions.cc:86-97. *)
Definition mvn_woodbury_lpdf p q (datum mean sigma_diag : 'cV[R]_p) (lambda : 'M[R]_(p, q)) : R :=
  let inv := \col_i (sigma_diag i 0)^-1 in
  let '(wood_chol, cov_logdet) := wood_chol_and_logdet inv lambda in
  mvn_woodbury_chol_lpdf datum mean inv wood_chol cov_logdet.

(** distributions.cc:120-131. *)
Definition mst_lpdf (lg : R -> R) d (datum : 'cV[R]_d) (df : R) (mean : 'cV[R]_d) (invscale_chol : 'M[R]_d)
    (scale_logdet : R) : R :=
  let e := hf * (df + d%:R) * ln (1 + sqnorm (invscale_chol *m (datum - mean)) / df) in
  let base := lg ((df + d%:R) * hf) - lg (df * hf) - hf * d%:R * ln df - hf * d%:R * ln PI + hf * scale_logdet in
  base - e.

(** distributions.cc:133-150. *)
Definition mst_lpdf_grid (lg : R -> R) n d (data : 'M[R]_(n, d)) (df : R) (mean : 'cV[R]_d)
    (invscale_chol : 'M[R]_d) (scale_logdet : R) : 'cV[R]_n :=
  let base_coeff := lg ((df + d%:R) * hf) - lg (df * hf) - hf * d%:R * ln df - hf * d%:R * ln PI + hf * scale_logdet in
  let quadforms := row_sqnorm ((\matrix_(i, j) (data i j - mean j 0)) *m invscale_chol^T) in
  \col_i (1 * base_coeff - ln (quadforms i 0 / df + 1) * hf * (df + d%:R)).

(** ** Cluster parameters *)

(** multi_ls_state.h:61-65. *)
Record mls (d : nat) : Type := mkMLS {
  ml_mean : 'cV[R]_d; ml_prec : 'M[R]_d; ml_chol : 'M[R]_d; ml_logdet : R }.

(** multi_ls_state.h:78-84. *)
Definition mls_set_constrained d (mean : 'cV[R]_d) (prec : 'M[R]_d) : mls d :=
  mkMLS mean prec (llt_L prec) (2%:R * diag_logsum (llt_L prec)).

(** multi_ls_state.h:86-96, 98-105. *)
Definition mls_get_proto d (s : mls d) : 'cV[R]_d * 'M[R]_d * 'M[R]_d := (ml_mean s, ml_prec s, ml_chol s).
Definition mls_set_proto d (p : 'cV[R]_d * 'M[R]_d * 'M[R]_d) : mls d :=
  mkMLS p.1.1 p.1.2 p.2 (2%:R * diag_logsum p.2).

(** nw_prior_model.cc:255-262, on a state whose mean is set. *)
Definition write_prec_to_state d (mean : 'cV[R]_d) (prec : 'M[R]_d) : mls d :=
  mkMLS mean prec (llt_U prec) (2%:R * diag_logsum (llt_U prec)).

(** ** Multivariate normal likelihood *)

(** multi_norm_likelihood.cc:7-11. *)
Definition mnorm_lpdf d (s : mls d) (y : 'cV[R]_d) : R :=
  mvn_prec_lpdf y (ml_mean s) (ml_chol s) (ml_logdet s).

(** multi_norm_likelihood.cc:13-26, 28-31: [data_sum], [data_sum_squares]. *)
Definition mnorm_stats (d : nat) : Type := ('cV[R]_d * 'M[R]_d)%type.
Definition mnorm_stats0 d : mnorm_stats d := (0, 0).
Definition mnorm_op d (y : 'cV[R]_d) (add : bool) (s : mnorm_stats d) : mnorm_stats d :=
  if add then (s.1 + y, s.2 + y *m y^T) else (s.1 - y, s.2 - y *m y^T).

(** ** Normal-Wishart prior *)

(** hyperparams.h:16-20. *)
Record nw (d : nat) : Type := mkNW {
  nw_mean : 'cV[R]_d; nw_vs : R; nw_df : R; nw_scale : 'M[R]_d; nw_sinv : 'M[R]_d; nw_chol : 'M[R]_d }.
(** The message nnw_state. *)
Record nwp (d : nat) : Type := mkNWP {
  np_mean : 'cV[R]_d; np_vs : R; np_df : R; np_scale : 'M[R]_d; np_chol : 'M[R]_d }.

(** nw_prior_model.cc:233-253, 222-231. *)
Definition nw_proto d (h : nw d) : nwp d := mkNWP (nw_mean h) (nw_vs h) (nw_df h) (nw_scale h) (nw_chol h).
Definition nw_set_proto d (p : nwp d) : res (nw d) :=
  inv <- inverse_spd (np_scale p) ;;
  Ok (mkNW (np_mean p) (np_vs p) (np_df p) (np_scale p) inv (np_chol p)).

Inductive nw_prior (d : nat) : Type :=
| NWFixed (mean : 'cV[R]_d) (vs df : R) (scale : 'M[R]_d)
| NWMean (mu00 : 'cV[R]_d) (sigma00 : 'M[R]_d) (vs df : R) (scale : 'M[R]_d)
| NWNgiw (mu00 : 'cV[R]_d) (sigma00 : 'M[R]_d) (alpha00 beta00 nu00 : R) (tau00 : 'M[R]_d) (nu0 : R)
| NWOther.

(** nw_prior_model.cc:110-111. *)
Definition nw_finish d (mean : 'cV[R]_d) (vs df : R) (scale : 'M[R]_d) : res (nw d) :=
  inv <- inverse_spd scale ;; Ok (mkNW mean vs df scale inv (llt_U scale)).

(** nw_prior_model.cc:7-112. *)
Definition nw_init d (p : nw_prior d) : res (nw d) :=
  match p with
  | NWFixed mean vs df scale =>
      if lteb vs 0 then Throw "Variance-scaling parameter must be > 0"
      else if lteb df (d%:R - 1) then Throw "Degrees of freedom parameter is not valid"
      else nw_finish mean vs df scale
  | NWMean mu00 sigma00 vs df scale =>
      _ <- check_spd sigma00 ;;
      if lteb vs 0 then Throw "Variance-scaling parameter must be > 0"
      else
        _ <- check_spd scale ;;
        if lteb df (d%:R - 1) then Throw "Degrees of freedom parameter is not valid"
        else nw_finish mu00 vs df scale
  | NWNgiw mu00 sigma00 alpha00 beta00 nu00 tau00 nu0 =>
      _ <- check_spd sigma00 ;;
      if lteb alpha00 0 then Throw "Shape parameter must be > 0"
      else if lteb beta00 0 then Throw "Rate parameter must be > 0"
      else if lteb nu00 0 then Throw "Degrees of freedom parameter must be > 0"
      else
        _ <- check_spd tau00 ;;
        if lteb nu0 (d%:R - 1) then Throw "Degrees of freedom parameter is not valid"
        else nw_finish mu00 (alpha00 / beta00) nu0 ((nu00 + d%:R + 1)^-1 *: tau00)
  | NWOther => Throw "Unrecognized hierarchy prior"
  end.

(** nw_prior_model.cc:114-123. *)
Definition nw_lpdf (lg : R -> R) d (h : nw d) (mean : 'cV[R]_d) (prec : 'M[R]_d) : R :=
  stan_mvn_prec_lpdf mean (nw_mean h) (nw_vs h *: prec) + stan_wishart_lpdf lg prec (nw_df h) (nw_scale h).

(** nw_prior_model.cc:125-141. *)
Definition nw_sample (G : gen) (M : mgen G) d (p : nwp d) (r : Gs G) : mls d * Gs G :=
  let '(tau_new, r1) := g_wishart M (np_df p) (np_scale p) r in
  let '(mean, r2) := g_mvn_prec M (np_mean p) (np_vs p *: tau_new) r1 in
  (write_prec_to_state mean tau_new, r2).

(** nw_prior_model.cc:151-172: mean and precision of the draw. *)
Definition nw_mean_update d (mu00 : 'cV[R]_d) (sigma00inv : 'M[R]_d) (vs : R) (states : seq (mls d)) :
    'cV[R]_d * 'M[R]_d :=
  let prec := foldl (fun a s => a + ml_prec s) 0 states in
  let num := foldl (fun a s => a + ml_prec s *m ml_mean s) 0 states in
  let prec := vs *: prec + sigma00inv in
  let num := vs *: num + sigma00inv *m mu00 in
  (llt_solve prec num, prec).

(** nw_prior_model.cc:174-208: [mu_n], [prec_n], [alpha_n], [beta_n], [nu_n],
    [tau_n]. *)
Record ngiw_post (d : nat) : Type := mkNgiw {
  gi_mu : 'cV[R]_d; gi_prec : 'M[R]_d; gi_alpha : R; gi_beta : R; gi_nu : R; gi_tau : 'M[R]_d }.
Definition ngiw_update d (mu00 : 'cV[R]_d) (sigma00inv : 'M[R]_d) (alpha00 beta00 nu00 : R) (tau00 : 'M[R]_d)
    (h : nw d) (states : seq (mls d)) : ngiw_post d :=
  let tau_n := foldl (fun a s => a + ml_prec s) 0 states in
  let num := foldl (fun a s => a + ml_prec s *m ml_mean s) 0 states in
  let beta_n := foldl (fun a s => a + quad (ml_prec s) (nw_mean h - ml_mean s)) 0 states in
  let prec_n := nw_vs h *: tau_n + sigma00inv in
  let num := nw_vs h *: num + sigma00inv *m mu00 in
  mkNgiw (invmx prec_n *m num) prec_n (alpha00 + hf * (size states)%:R) (beta00 + hf * beta_n)
         (nu00 + (size states)%:R * nw_df h) (tau_n + tau00).

(** nw_prior_model.cc:143-220. *)
Definition nw_update_hypers (G : gen) (M : mgen G) d (p : nw_prior d) (h : nw d) (states : seq (mls d)) (r : Gs G) :
    res (nw d * Gs G) :=
  match p with
  | NWFixed _ _ _ _ => Ok (h, r)
  | NWMean mu00 sigma00 _ _ _ =>
      inv <- inverse_spd sigma00 ;;
      let '(mu_n, prec) := nw_mean_update mu00 inv (nw_vs h) states in
      let '(mean, r1) := g_mvn_prec M mu_n prec r in
      Ok (mkNW mean (nw_vs h) (nw_df h) (nw_scale h) (nw_sinv h) (nw_chol h), r1)
  | NWNgiw mu00 sigma00 alpha00 beta00 nu00 tau00 _ =>
      inv <- inverse_spd sigma00 ;;
      let q := ngiw_update mu00 inv alpha00 beta00 nu00 tau00 h states in
      sig_n <- inverse_spd (gi_prec q) ;;
      let '(mean, r1) := g_mvn M (gi_mu q) sig_n r in
      let '(vs, r2) := g_gamma G (gi_alpha q) (gi_beta q) r1 in
      let '(scale, r3) := g_inv_wishart M (gi_nu q) (gi_tau q) r2 in
      sinv <- inverse_spd scale ;;
      Ok (mkNW mean vs (nw_df h) scale sinv (llt_U scale), r3)
  | NWOther => Throw "Unrecognized hierarchy prior"
  end.

(** ** Conjugate update *)

(** nnw_updater.cc:25-40: [scale_inv] of the update. *)
Definition nnw_scale_inv d (h : nw d) (card : R) (st : mnorm_stats d) : 'M[R]_d :=
  let mubar := card^-1 *: st.1 in
  let tau_temp := st.2 - card *: (mubar *m mubar^T) in
  let tau_temp := tau_temp + (card * nw_vs h / (card + nw_vs h)) *: ((mubar - nw_mean h) *m (mubar - nw_mean h)^T) in
  tau_temp + nw_sinv h.

(** nnw_updater.cc:8-53. *)
Definition nnw_post d (h : nw d) (card : Z) (st : mnorm_stats d) : nwp d :=
  if Z.eqb card 0 then nw_proto h
  else
    let n := IZR card in
    let mubar := n^-1 *: st.1 in
    let scale := invmx (nnw_scale_inv h n st) in
    mkNWP ((nw_vs h + n)^-1 *: (nw_vs h *: nw_mean h + n *: mubar))
          (nw_vs h + n) (nw_df h + n) scale (llt_U scale).

(** nnw_hierarchy.h:66-75, 83-97. *)
Definition nnw_marg_lpdf (lg : R -> R) d (p : nwp d) (y : 'cV[R]_d) : R :=
  let nu_n := np_df p - d%:R + 1 in
  let coeff := (np_vs p + 1) / (np_vs p * nu_n) in
  let scale_chol_n := (sqrt coeff)^-1 *: np_chol p in
  let logdet := 2%:R * diag_logsum scale_chol_n in
  mst_lpdf lg y nu_n (np_mean p) scale_chol_n logdet.

(** nnw_hierarchy.h:47-59. *)
Definition nnw_init_state d (h : nw d) : mls d := write_prec_to_state (nw_mean h) (nw_vs h)%:M.

(** ** Linear regression *)

(** uni_lin_reg_ls_state.h:54-57. *)
Record lrs (d : nat) : Type := mkLRS { lr_coef : 'cV[R]_d; lr_var : R }.

(** uni_lin_reg_likelihood.cc:11-16. *)
Definition lin_lpdf d (s : lrs d) (y : R) (x : 'cV[R]_d) : R :=
  normal_lpdf y (dot (lr_coef s) x) (sqrt (lr_var s)).

(** uni_lin_reg_likelihood.cc:5-9, 18-30: [data_sum_squares],
    [covar_sum_squares], [mixed_prod]. *)
Definition lin_stats (d : nat) : Type := (R * 'M[R]_d * 'cV[R]_d)%type.
Definition lin_stats0 d : lin_stats d := (0, 0, 0).
Definition lin_op d (y : R) (x : 'cV[R]_d) (add : bool) (s : lin_stats d) : lin_stats d :=
  if add then (s.1.1 + y * y, s.1.2 + x *m x^T, s.2 + y *: x)
  else (s.1.1 - y * y, s.1.2 - x *m x^T, s.2 - y *: x).

(** hyperparams.h:22-26; [var_scaling_inv] is never read. *)
Record mnig (d : nat) : Type := mkMNIG {
  mg_mean : 'cV[R]_d; mg_vs : 'M[R]_d; mg_shape : R; mg_scale : R }.

Inductive mnig_prior (d : nat) : Type :=
| MNIGFixed (mean : 'cV[R]_d) (vs : 'M[R]_d) (shape scale : R)
| MNIGOther.

(** mnig_prior_model.cc:59-84. *)
Definition mnig_init d (p : mnig_prior d) : res (mnig d) :=
  match p with
  | MNIGFixed mean vs shape scale =>
      _ <- inverse_spd vs ;;
      _ <- check_spd vs ;;
      if lteb shape 0 then Throw "Shape parameter must be > 0"
      else if lteb scale 0 then Throw "scale parameter must be > 0"
      else Ok (mkMNIG mean vs shape scale)
  | MNIGOther => Throw "Unrecognized hierarchy prior"
  end.

(** mnig_prior_model.cc:3-12. *)
Definition mnig_lpdf (lg : R -> R) d (h : mnig d) (s : lrs d) : R :=
  stan_mvn_prec_lpdf (lr_coef s) (mg_mean h) ((lr_var s)^-1 *: mg_vs h)
  + inv_gamma_lpdf lg (lr_var s) (mg_shape h) (mg_scale h).

(** mnig_prior_model.cc:14-26. *)
Definition mnig_sample (G : gen) (M : mgen G) d (h : mnig d) (r : Gs G) : lrs d * Gs G :=
  let '(var, r1) := g_invgamma G (mg_shape h) (mg_scale h) r in
  let '(coef, r2) := g_mvn_prec M (mg_mean h) (var^-1 *: mg_vs h) r1 in
  (mkLRS coef var, r2).

(** mnig_updater.cc:3-44. *)
Definition mnig_post d (h : mnig d) (card : Z) (st : lin_stats d) : mnig d :=
  if Z.eqb card 0 then h
  else
    let vs := st.1.2 + mg_vs h in
    let mean := llt_solve vs (st.2 + mg_vs h *m mg_mean h) in
    mkMNIG mean vs (mg_shape h + hf * IZR card)
           (mg_scale h + hf * (st.1.1 + quad (mg_vs h) (mg_mean h) - quad vs mean)).

(** lin_reg_uni_hierarchy.h:66-80. *)
Definition lin_marg_lpdf (lg : R -> R) d (h : mnig d) (y : R) (x : 'cV[R]_d) : R :=
  let vs_inv := llt_solve (mg_vs h) 1%:M in
  let sig_n := sqrt ((1 + quad vs_inv x) * mg_scale h / mg_shape h) in
  student_t_lpdf lg y (2%:R * mg_shape h) (dot x (mg_mean h)) sig_n.

(** lin_reg_uni_hierarchy.h:48-58. *)
Definition lin_init_state d (h : mnig d) : lrs d := mkLRS (mg_mean h) (mg_scale h / (mg_shape h + 1)).
