(** * The L2 distance between multivariate Gaussian mixtures.

    Model of the second [gaussian_mixture_dist] of src/utils/distributions.cc
    (193-240).  Functions only.  Precisions are inverted with [inverse_spd],
    which throws; so does [multi_normal_lpdf] when the covariance is not symmetric
    positive definite.  All components have the same dimension. *)
From Coq Require Import String ZArith Reals.
From mathcomp Require Import all_ssreflect all_algebra.
From Verif Require Import Base Mixings Univ RealField MatLib Multi.
Set Implicit Arguments.
Unset Strict Implicit.
Unset Printing Implicit Defensive.
Import GRing.Theory.
Local Open Scope ring_scope.

(** [stan::math::multi_normal_lpdf] with its checks. *)
Definition multi_normal_lpdf d (y mean : 'cV[R]_d) (S : 'M[R]_d) : res R :=
  if S^T != S then Throw "Covariance matrix is not symmetric"
  else if pivots_pos S then Ok (stan_mvn_lpdf y mean S) else Throw "Covariance matrix is not positive definite".

(** 200-204 *)
Definition invert_all d (precs : list 'M[R]_d) : res (list 'M[R]_d) := rmap (@inverse_spd d) precs.

(** 206-214, 216-224, 226-235 *)
Definition mcross d (m1 : list 'cV[R]_d) (v1 : list 'M[R]_d) (w1 : list R)
    (m2 : list 'cV[R]_d) (v2 : list 'M[R]_d) (w2 : list R) : res R :=
  rfold (fun acc i =>
    rfold (fun acc j =>
      vi <- at_ v1 i ;;
      vj <- at_ v2 j ;;
      wi <- at_ w1 i ;;
      wj <- at_ w2 j ;;
      mi <- at_ m1 i ;;
      mj <- at_ m2 j ;;
      l <- multi_normal_lpdf mi mj (vi + vj) ;;
      Ok (acc + wi * wj * exp l)) (List.seq 0 (List.length m2)) acc)
    (List.seq 0 (List.length m1)) 0.

(** 193-240 *)
Definition multi_mixture_dist d (m1 : list 'cV[R]_d) (p1 : list 'M[R]_d) (w1 : list R)
    (m2 : list 'cV[R]_d) (p2 : list 'M[R]_d) (w2 : list R) : res R :=
  v1 <- invert_all p1 ;;
  v2 <- invert_all p2 ;;
  mix1 <- mcross m1 v1 w1 m1 v1 w1 ;;
  mix2 <- mcross m2 v2 w2 m2 v2 w2 ;;
  inter <- mcross m1 v1 w1 m2 v2 w2 ;;
  Ok (mix1 + mix2 - 2%:R * inter).
