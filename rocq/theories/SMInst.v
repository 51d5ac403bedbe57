(** * Programs of the split-and-merge algorithm.

    The clusters of base_algorithm.cc:112-155 built with
    [update_hierarchy_params() = true] (split_and_merge_algorithm.h:53), then
    iterations whose allocations are those of SplitMerge.v
    (split_and_merge_algorithm.cc:26-63) with the three numbers of
    split_and_merge_algorithm.cc:10-16.  Functions only. *)
From Coq Require Import List Arith ZArith.
From Verif Require Import Base Hier Algos SplitMerge Run CovInst.
Import ListNotations.

Section Program.
  Variable I : Iface.
  Variable hyp0 : res (Hyp I).
  Variable mix0 : res (Mix I).
  Variable data : list (Datum I).
  Variable covs : list (Cov I).
  Variable k : nat.
  Variable pos : nat -> nat.
  Variable st : St I.

  (** [covs] are the covariates set by the user: only the initialisation reads them. *)
  Definition sm_run (n_restr n_mh n_full maxiter burnin : nat) (r : Rng I) :=
    run (cov_start I hyp0 mix0 data covs k pos st true r) (base_step (sm_sample_allocations data n_restr n_mh n_full) true) maxiter burnin.
End Program.
