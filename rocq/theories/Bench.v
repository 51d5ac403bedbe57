(** * The densities compared by the benchmarks, and the matrices of the test helpers.

    Model of benchmarks/lpd_grid.cc and of [get_spd_matrix] and
    [get_multivariate_nnw_hierarchy] of src/utils/testing_utils.cc.  Functions
    only.  Doubles are reals; Eigen's [Random] matrix is an argument. *)
From Coq Require Import String ZArith Reals.
From mathcomp Require Import all_ssreflect all_algebra.
From Verif Require Import Base Mixings Univ RealField MatLib Multi.
Set Implicit Arguments.
Unset Strict Implicit.
Unset Printing Implicit Defensive.
Import GRing.Theory.
Local Open Scope ring_scope.

(** lpd_grid.cc:9-16, 18-26, 28-38. *)
Definition bench_cov n d (x : 'M[R]_(n, d)) (mean : 'cV[R]_d) (cov : 'M[R]_d) : 'cV[R]_n :=
  \col_i stan_mvn_lpdf (row i x)^T mean cov.
Definition bench_prec n d (x : 'M[R]_(n, d)) (mean : 'cV[R]_d) (prec : 'M[R]_d) : 'cV[R]_n :=
  \col_i stan_mvn_prec_lpdf (row i x)^T mean prec.
Definition bench_naive n d (x : 'M[R]_(n, d)) (mean : 'cV[R]_d) (prec_chol : 'M[R]_d) (prec_logdet : R) : 'cV[R]_n :=
  \col_i mvn_prec_lpdf (row i x)^T mean prec_chol prec_logdet.
(** lpd_grid.cc:40-50. *)
Definition bench_optimized n d (x : 'M[R]_(n, d)) (mean : 'cV[R]_d) (prec_chol : 'M[R]_d) (prec_logdet : R) : 'cV[R]_n :=
  let e := row_sqnorm ((\matrix_(i, j) (x i j - mean j 0)) *m prec_chol) in
  let base := const_mx (1 * prec_logdet + neg_log_sqrt_two_pi * d%:R) in
  hf *: (base - e).

(** lpd_grid.cc:76-78, 90-92. *)
Definition bench_chol d (prec : 'M[R]_d) : 'M[R]_d := llt_U prec.
Definition bench_logdet d (prec : 'M[R]_d) : R := 2%:R * diag_logsum (bench_chol prec).

(** testing_utils.cc:68-73; [A] is the random matrix. *)
Definition get_spd_matrix d (A : 'M[R]_(d.+1, d)) : 'M[R]_d := A^T *m A + 1%:M.
(** testing_utils.cc:3-21. *)
Definition test_nnw d (A : 'M[R]_(d.+1, d)) : res (nw d) :=
  nw_init (NWFixed 0 (10%:R^-1) (d%:R + 5%:R) (get_spd_matrix A)).
