(** * Hyperparameters of the factor-analytic hierarchy from the data.

    Model of [set_fa_hyperparams_from_data]
    (src/hierarchies/fa_hierarchy.h:65-107) and of what the prior's
    [set_hypers_from_proto] (priors/fa_prior_model.cc:66-74) keeps of it.
    Functions only.

    Doubles are reals.  The prior's own member [dim] is kept apart from the
    length of the vectors of the hyperparameters, since the two can differ here.
    The messages in between carry the fields unchanged.  Eigen's LLT of a matrix
    that is not positive definite, and operations on operands whose sizes do not
    match, are [UB]. *)
From Coq Require Import String ZArith Reals.
From mathcomp Require Import all_ssreflect all_algebra.
From Verif Require Import Base Mixings Univ RealField MatLib Multi Fa.
Set Implicit Arguments.
Unset Strict Implicit.
Unset Printing Implicit Defensive.
Import GRing.Theory.
Local Open Scope ring_scope.

(** The prior: fa_prior_model.h, members [dim] and [hypers]; [pm_len] is the
    length of [mutilde] and [beta]. *)
Record fa_pm : Type := mkPM { pm_dim : nat; pm_len : nat; pm_hyp : fa_hyp pm_len }.

(** fa_hierarchy.h:81, 86: [colwise().mean()]. *)
Definition col_means n p (data : 'M[R]_(n, p)) : 'cV[R]_p := \col_j ((\sum_i data i j) / n%:R).
(** fa_hierarchy.h:85-89. *)
Definition sample_cov n p (data : 'M[R]_(n, p)) : 'M[R]_p :=
  let centered := \matrix_(i, j) (data i j - col_means data j 0) in
  (n%:R - 1)^-1 *: (centered^T *m centered).

(** fa_hierarchy.h:68-107, after [initialize] of the hierarchy: the likelihood's
    [dim] is the prior's, by fa_hierarchy.h:50.  Left out as [UB]: a prior whose
    [dim] is positive while [beta] is empty, which [initialize_hypers] refuses
    (fa_prior_model.cc:101-104), and new means that are not as many as the
    entries of the [beta] that is kept. *)
Definition fa_from_data n p (data : 'M[R]_(n, p)) (m : fa_pm) : res fa_pm :=
  let h := pm_hyp m in
  if (pm_len m == 0)%N then
    if (pm_dim m == 0)%N then
      let S := sample_cov data in
      if pivots_pos S then
        let precision := llt_solve S 1%:M in
        let beta := (fh_alpha0 h - 1) *: \col_j (precision j j)^-1 in
        if fh_alpha0 h == 1 then
          Throw "Scale parameter must be different than 1 when automatic initialization is used"
        else Ok (@mkPM (pm_dim m) p (mkFAH (col_means data) beta (fh_phi h) (fh_alpha0 h)))
      else UB
    else UB
  else if (pm_dim m == 0)%N then
    match PeanoNat.Nat.eq_dec (pm_len m) p with
    | left e => Ok (@mkPM (pm_dim m) p (mkFAH (col_means data) (castmx (e, erefl 1%N) (fh_beta h)) (fh_phi h) (fh_alpha0 h)))
    | right _ => UB
    end
  else Ok m.

(** fa_hierarchy.h:48-62: the product [psi_inverse * lambda] needs as many rows
    in [lambda] (the prior's [dim]) as [psi] has entries. *)
Definition pm_init_state q (m : fa_pm) : res (fa_st (pm_len m) q) :=
  if (pm_dim m == pm_len m)%N then Ok (fa_init_state q (pm_hyp m)) else UB.

(** fa_prior_model.cc:30-54: [mu], [psi] and the rows of [lambda]; entries of
    [mu] and [psi] from [dim] on keep what they were set to. *)
Definition pm_sample (G : gen) q (m : fa_pm) (r : Gs G) : res (seq R * seq R * seq (seq R) * Gs G) :=
  let h := pm_hyp m in
  if (pm_dim m <= pm_len m)%N then
    let '(rows, r1) := fa_sample_rows q h (take (pm_dim m) (enum 'I_(pm_len m))) r in
    let rest := drop (pm_dim m) (enum 'I_(pm_len m)) in
    Ok ([seq x.1.1 | x <- rows] ++ [seq fh_mutilde h j 0 | j <- rest],
        [seq x.1.2 | x <- rows] ++ [seq fh_beta h j 0 / (fh_alpha0 h + 1) | j <- rest],
        [seq x.2 | x <- rows], r1)%SEQ
  else UB.

(** fa_prior_model.cc:90-122 on the message's vectors. *)
Definition pm_init p q (pr : fa_prior p) : res fa_pm :=
  rbind (fa_init q pr) (fun h => Ok (mkPM p h)).
