(** * Programs of the marginal algorithms on data with covariates.

    The programs of UnivInst.v with the matrix of covariates of the hierarchy
    passed to the algorithm (base_algorithm.h:109-111 [set_hier_covariates],
    base_algorithm.cc:79-91, 136-148) and with the algorithm as a parameter.
    Functions only. *)
From Coq Require Import List Arith ZArith.
From Verif Require Import Base Hier Algos Run Cond.
Import ListNotations.

(** neal2_algorithm.h, neal3_algorithm.h, neal8_algorithm.h:32-37, 71 ([n_aux]). *)
Inductive marginal_algorithm : Type := Neal2 | Neal3 | Neal8 (n_aux : nat).

Section Program.
  Variable I : Iface.
  Variable hyp0 : res (Hyp I).
  Variable mix0 : res (Mix I).
  Variable data : list (Datum I).
  Variable covs : list (Cov I).
  Variable k : nat.
  Variable pos : nat -> nat.
  Variable st : St I.

  (** base_algorithm.cc:112-155. *)
  Definition cov_start (uhp : bool) (r : Rng I) : res (alg I * Rng I) :=
    m <- mix0 ;; hy <- hyp0 ;; init_clusters data covs uhp hy m k pos [mkHier I [] 0%Z (stats0 I) st false None] r.

  Definition marginal_run (al : marginal_algorithm) (maxiter burnin : nat) (r : Rng I) :=
    match al with
    | Neal2 => run (cov_start false r) (base_step (neal2_sample_allocations data covs) false) maxiter burnin
    | Neal3 => run (cov_start true r) (base_step (neal3_sample_allocations data covs) true) maxiter burnin
    | Neal8 n_aux =>
        run ('(a, r0) <- cov_start false r ;; a1 <- neal8_init_aux n_aux a ;; Ok (a1, r0))
          (base_step (neal8_sample_allocations data covs n_aux) false) maxiter burnin
    end.

  (** The program of CondInst.v (blocked_gibbs_algorithm.cc:20-42): [ncomp] is the
      number of components the mixing has after its own [initialize]. *)
  Definition cov_blocked_run (ncomp : Mix I -> nat) (maxiter burnin : nat) (r : Rng I) :=
    m <- mix0 ;; hy <- hyp0 ;;
    run (init_clusters data covs false hy m (ncomp m) pos [mkHier I [] 0%Z (stats0 I) st false None] r)
      (base_step (blocked_sample_allocations data covs (num_components I data (ncomp m))) false) maxiter burnin.
End Program.
