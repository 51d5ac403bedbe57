(** * Properties of the benchmarked densities and of the test helpers. *)
From Coq Require Import String ZArith Reals Lra Lia Classical.
From mathcomp Require Import all_ssreflect all_algebra.
From mathcomp.algebra_tactics Require Import ring.
From Verif Require Import Base Mixings Univ RealField MatLib Multi MultiFacts NwHyper Bench.
Set Implicit Arguments.
Unset Strict Implicit.
Unset Printing Implicit Defensive.
Import Order.TTheory GRing.Theory Num.Theory.
Local Open Scope ring_scope.

(** ** C141 *)

(** The matrices of the helpers are precisions, and their hierarchy starts. *)
Theorem C141_helper : forall d (A : 'M[R]_(d.+1, d)),
  spd (get_spd_matrix A) /\ exists h, test_nnw A = Ok h.
Proof.
  move=> d A. have H : spd (get_spd_matrix A).
  { rewrite /get_spd_matrix addrC. apply: spd_add; [exact: spd1|exact: psd_gram]. }
  split=> //. apply/nw_init_fixed. split=> //; first by rewrite invr_gt0 ltr0n.
  by rewrite ltr_add2l (@lt_trans _ _ 0) // ?ltr0n // oppr_lt0 ltr01.
Qed.
Print Assumptions C141_helper.

(** Covariance, precision and lower factor give one density. *)
Theorem C141_same : forall n d (x : 'M[R]_(n, d)) m (P : 'M[R]_d), spd P ->
  bench_cov x m (invmx P) = bench_prec x m P /\
  (forall L, L *m L^T = P -> bench_naive x m L (ln (\det P)) = bench_prec x m P).
Proof.
  move=> n d x m P HP. split.
  - apply/matrixP=> i k. rewrite !mxE /stan_mvn_lpdf /stan_mvn_prec_lpdf det_inv_ln // invmxK. ring.
  - move=> L HL. apply/matrixP=> i k. rewrite !mxE. exact: mvn_prec_factor.
Qed.
Print Assumptions C141_same.

(** The function called fully optimized is off by a constant. *)
Theorem C141_optimized : forall n d (x : 'M[R]_(n, d)) m C ld i,
  bench_optimized x m C ld i 0 = bench_naive x m C ld i 0 + d%:R * ln (2%:R * PI) / 4%:R.
Proof.
  move=> n d x m C ld i. rewrite [in RHS]mxE -mvn_grid_row /bench_optimized /mvn_prec_lpdf_grid !mxE lnorm2pi /hf.
  by field.
Qed.
Print Assumptions C141_optimized.
Theorem C141_optimized_differs : forall n d (x : 'M[R]_(n, d)) m C ld, (0 < n)%N -> (0 < d)%N ->
  bench_optimized x m C ld <> bench_naive x m C ld.
Proof.
  move=> n d x m C ld Hn Hd H. have := C141_optimized x m C ld (Ordinal Hn). rewrite -H => /eqP.
  rewrite -subr_eq0 opprD addrA subrr sub0r oppr_eq0 gt_eqF // divr_gt0 ?ltr0n // mulr_gt0 ?ltr0n //.
  apply/RltE. have -> : (2%:R * PI : R) = Rmult (IZR 2) PI by rewrite -[2%:R]/(Rplus 1 1).
  apply: (Rle_lt_trans _ (ln (IZR 1))); first by rewrite ln_1; exact: Rle_refl.
  apply: ln_increasing; first exact: Rlt_0_1. have := PI2_1. rewrite /PI2. have := PI_RGT_0. clear. move=> H1 H2. Lra.lra.
Qed.
Print Assumptions C141_optimized_differs.
(** "The benchmarks compare four ways to one density": false of the last. *)
Theorem C141_optimized_refuted : exists n d (x : 'M[R]_(n, d)) m C ld,
  bench_optimized x m C ld <> bench_naive x m C ld.
Proof. exists 1%N, 2%N, (const_mx 1), 0, 1%:M, 0. exact: C141_optimized_differs. Qed.
Print Assumptions C141_optimized_refuted.

(** With the upper factor that the benchmarks hand over, the library's function
    gives the density of the precision only when that is diagonal. *)
Theorem C141_upper_iff : forall d (P : 'M[R]_d), spd P ->
  (forall n (x : 'M[R]_(n, d)) m, bench_naive x m (bench_chol P) (bench_logdet P) = bench_prec x m P) <->
  (forall i j, i != j -> P i j = 0).
Proof.
  move=> d P HP. rewrite -(write_prec_right_iff HP). split.
  - move=> H m y. have := H 1%N y^T m => /matrixP /(_ 0 0). rewrite !mxE.
    have -> : (row 0 y^T)^T = y by apply/matrixP=> i k; rewrite !mxE (ord1 k).
    by move=> <-.
  - move=> H n x m. apply/matrixP=> i k. rewrite !mxE. by rewrite -(H m (row i x)^T).
Qed.
Print Assumptions C141_upper_iff.

(** *** One row [(1, 1)] in the random matrix *)
Definition ones_row : 'M[R]_(3, 2) := \matrix_(i, j) (i == 0)%:R.
Lemma ones_offdiag : get_spd_matrix ones_row 0 1 = 1.
Proof.
  rewrite /get_spd_matrix !mxE !big_ord_recl big_ord0 !mxE /=. ring.
Qed.
Example C141_example : exists h, test_nnw ones_row = Ok h.
Proof. exact: (proj2 (C141_helper ones_row)). Qed.
Theorem C141_upper_refuted : exists n d (A : 'M[R]_(d.+1, d)) (x : 'M[R]_(n, d)) m,
  let P := get_spd_matrix A in bench_naive x m (bench_chol P) (bench_logdet P) <> bench_prec x m P.
Proof.
  have HP := proj1 (C141_helper ones_row).
  have H : ~ (forall n (x : 'M[R]_(n, 2)) m, bench_naive x m (bench_chol (get_spd_matrix ones_row)) (bench_logdet (get_spd_matrix ones_row))
              = bench_prec x m (get_spd_matrix ones_row)).
  { move/(C141_upper_iff HP)/(_ 0 1 isT). rewrite ones_offdiag => /eqP. by rewrite oner_eq0. }
  have [n Hn] := not_all_ex_not _ _ H. have [x Hx] := not_all_ex_not _ _ Hn. have [m Hm] := not_all_ex_not _ _ Hx.
  by exists n, 2%N, ones_row, x, m.
Qed.
Print Assumptions C141_upper_refuted.
