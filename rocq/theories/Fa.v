(** * The factor analytic hierarchy over the reals.

    Model of src/hierarchies/likelihoods/fa_likelihood.cc,
    likelihoods/states/fa_state.h, priors/fa_prior_model.cc,
    updaters/fa_updater.cc and fa_hierarchy.h.  Functions only.

    Conventions as in Multi.v.  [p] is the data dimension and [q] the number of
    factors.  The rows of the matrix [eta] are kept as a list of columns.  The
    data of a cluster come in the order of the std::set of their indices.  Fields
    that a constructor leaves at Eigen's empty default are [None]; reading one is
    undefined behaviour (an Eigen assertion when those are compiled in). *)
From Coq Require Import String ZArith Reals.
From mathcomp Require Import all_ssreflect all_algebra.
From Verif Require Import Base Mixings Univ RealField MatLib Multi.
Set Implicit Arguments.
Unset Strict Implicit.
Unset Printing Implicit Defensive.
Import GRing.Theory.
Local Open Scope ring_scope.

(** fa_state.h:34-39. *)
Record fa_st (p q : nat) : Type := mkFA {
  fa_mu : 'cV[R]_p; fa_psi : 'cV[R]_p; fa_eta : seq 'cV[R]_q; fa_lambda : 'M[R]_(p, q);
  fa_pinv : option 'cV[R]_p; fa_wood : option ('M[R]_(q, p) * R) }.

(** hyperparams.h:28-32; [q] is a parameter of the types. *)
Record fa_hyp (p : nat) : Type := mkFAH {
  fh_mutilde : 'cV[R]_p; fh_beta : 'cV[R]_p; fh_phi : R; fh_alpha0 : R }.

Inductive fa_prior (p : nat) : Type :=
| FAFixed (mutilde beta : 'cV[R]_p) (phi alpha0 : R)
| FAOther.

(** fa_prior_model.cc:90-122. *)
Definition fa_init p (q : nat) (pr : fa_prior p) : res (fa_hyp p) :=
  match pr with
  | FAFixed mutilde beta phi alpha0 =>
      if [exists j, lteb (beta j 0) 0] then Throw "Shape parameter must be > 0"
      else if lteb alpha0 0 then Throw "Scale parameter must be > 0"
      else if lteb phi 0 then Throw "Diffusion parameter must be > 0"
      else if (q <= 0)%N then Throw "Number of factors must be > 0"
      else Ok (mkFAH mutilde beta phi alpha0)
  | FAOther => Throw "Unrecognized hierarchy prior"
  end.

(** fa_prior_model.cc:3-28. *)
Definition fa_prior_lpdf (lg : R -> R) p q (h : fa_hyp p) (mu psi : 'cV[R]_p) (lambda : 'M[R]_(p, q)) : R :=
  \sum_j (normal_lpdf (mu j 0) (fh_mutilde h j 0) (sqrt (fh_phi h))
          + inv_gamma_lpdf lg (psi j 0) (fh_alpha0 h) (fh_beta h j 0)
          + \sum_i normal_lpdf (lambda j i) 0 1).

(** fa_prior_model.cc:44-52, for the rows [js] still to draw: [mu_j], [psi_j],
    row [j] of [lambda]. *)
Fixpoint fa_sample_rows (G : gen) p (q : nat) (h : fa_hyp p) (js : seq 'I_p) (r : Gs G) :
    seq (R * R * seq R) * Gs G :=
  match js with
  | [::] => ([::], r)
  | j :: js' =>
      let '(m, r1) := g_norm G (fh_mutilde h j 0) (sqrt (fh_phi h)) r in
      let '(s, r2) := g_invgamma G (fh_alpha0 h) (fh_beta h j 0) r1 in
      let '(l, r3) := std_normals q r2 in
      let '(rest, r4) := fa_sample_rows q h js' r3 in
      ((m, s, l) :: rest, r4)
  end.
(** fa_prior_model.cc:30-54; the argument [hier_hypers] is ignored; [eta],
    [psi_inverse], [cov_wood] and [cov_logdet] are not assigned. *)
Definition fa_sample (G : gen) p q (h : fa_hyp p) (r : Gs G) : fa_st p q * Gs G :=
  let '(rows, r1) := fa_sample_rows q h (enum 'I_p) r in
  let at_ (j : 'I_p) := nth (0, 0, [::]) rows j in
  (mkFA (\col_j (at_ j).1.1) (\col_j (at_ j).1.2) [::] (\matrix_(j, i) nth 0 (at_ j).2 i) None None, r1).

(** fa_state.h:58-63; [psi.cwiseInverse()]. *)
Definition cwise_inv p (v : 'cV[R]_p) : 'cV[R]_p := \col_j (v j 0)^-1.
Definition fa_cache p q (mu psi : 'cV[R]_p) (eta : seq 'cV[R]_q) (lambda : 'M[R]_(p, q)) : fa_st p q :=
  mkFA mu psi eta lambda (Some (cwise_inv psi)) (Some (wood_chol_and_logdet (cwise_inv psi) lambda)).

(** fa_state.h:65-75, 43-54. *)
Definition fa_through_proto p q (s : fa_st p q) : fa_st p q :=
  fa_cache (fa_mu s) (fa_psi s) (fa_eta s) (fa_lambda s).

(** fa_hierarchy.h:48-62. *)
Definition fa_init_state p q (h : fa_hyp p) : fa_st p q :=
  fa_cache (fh_mutilde h) ((fh_alpha0 h + 1)^-1 *: fh_beta h) [::] 0.

(** fa_likelihood.cc:9-12. *)
Definition fa_lpdf p q (s : fa_st p q) (y : 'cV[R]_p) : res R :=
  match fa_pinv s, fa_wood s with
  | Some pinv, Some (wood, logdet) => Ok (mvn_woodbury_chol_lpdf y (fa_mu s) pinv wood logdet)
  | _, _ => UB
  end.

(** fa_likelihood.cc:5-7, 14-21. *)
Definition fa_op p (y : 'cV[R]_p) (add : bool) (s : 'cV[R]_p) : 'cV[R]_p := if add then s + y else s - y.

(** ** Parameters of the four draws *)

(** fa_updater.cc:37-42, 47-48: precision, mean for the datum [y]. *)
Definition fa_eta_prec p q (lambda : 'M[R]_(p, q)) (pinv : 'cV[R]_p) : 'M[R]_q :=
  1%:M + lambda^T *m diag_mx pinv^T *m lambda.
Definition fa_eta_mean p q (lambda : 'M[R]_(p, q)) (pinv mu : 'cV[R]_p) (y : 'cV[R]_p) : 'cV[R]_q :=
  llt_solve (fa_eta_prec lambda pinv) (lambda^T *m diag_mx pinv^T) *m (y - mu).

(** fa_updater.cc:57-67. *)
Definition fa_mu_cov p (pinv : 'cV[R]_p) (phi : R) (card : nat) : 'cV[R]_p :=
  \col_j (card%:R * pinv j 0 + phi)^-1.
Definition fa_mu_mean p q (h : fa_hyp p) (pinv : 'cV[R]_p) (lambda : 'M[R]_(p, q)) (eta : seq 'cV[R]_q) (card : nat)
    (data_sum : 'cV[R]_p) : 'cV[R]_p :=
  let sum := foldl +%R 0 eta in
  diag_mx (fa_mu_cov pinv (fh_phi h) card)^T *m
    (fh_phi h *: fh_mutilde h + diag_mx pinv^T *m (data_sum - lambda *m sum)).

(** fa_updater.cc:112-123: [card / 2] is a division of unsigned integers. *)
Definition fa_psi_shape p (h : fa_hyp p) (card : nat) : R := fh_alpha0 h + (card %/ 2)%:R.
Definition fa_psi_scale p q (h : fa_hyp p) (mu : 'cV[R]_p) (lambda : 'M[R]_(p, q)) (eta : seq 'cV[R]_q)
    (ys : seq 'cV[R]_p) (j : 'I_p) : R :=
  let sum := foldl (fun (a : R) (oe : 'cV[R]_p * 'cV[R]_q) => a + (oe.1 j 0 - mu j 0 - dot (row j lambda)^T oe.2) ^+ 2) 0 (zip ys eta) in
  fh_beta h j 0 + sum / 2%:R.

(** fa_updater.cc:81-98. *)
Definition eta_gram q (eta : seq 'cV[R]_q) : 'M[R]_q := \sum_(e <- eta) e *m e^T.
Definition fa_lambda_prec p q (psi : 'cV[R]_p) (eta : seq 'cV[R]_q) (j : 'I_p) : 'M[R]_q :=
  1%:M + (psi j 0)^-1 *: eta_gram eta.
Definition fa_lambda_mean p q (mu psi : 'cV[R]_p) (eta : seq 'cV[R]_q) (ys : seq 'cV[R]_p) (j : 'I_p) : 'cV[R]_q :=
  llt_solve (fa_lambda_prec psi eta j)
    (\sum_(oe <- zip ys eta : seq ('cV[R]_p * 'cV[R]_q)) ((oe.1 j 0 - mu j 0) / psi j 0) *: oe.2).

(** ** The draw *)

(** fa_updater.cc:44-49. *)
Fixpoint fa_draw_eta (G : gen) p q (lambda : 'M[R]_(p, q)) (pinv mu : 'cV[R]_p) (ys : seq 'cV[R]_p) (r : Gs G) :
    seq 'cV[R]_q * Gs G :=
  match ys with
  | [::] => ([::], r)
  | y :: ys' =>
      let '(e, r1) := mvn_prec_chol_rng (fa_eta_mean lambda pinv mu y) (fa_eta_prec lambda pinv) r in
      let '(es, r2) := fa_draw_eta lambda pinv mu ys' r1 in (e :: es, r2)
  end.
(** fa_updater.cc:112-124. *)
Fixpoint fa_draw_psi (G : gen) p q (h : fa_hyp p) (mu : 'cV[R]_p) (lambda : 'M[R]_(p, q)) (eta : seq 'cV[R]_q)
    (ys : seq 'cV[R]_p) (js : seq 'I_p) (r : Gs G) : seq R * Gs G :=
  match js with
  | [::] => ([::], r)
  | j :: js' =>
      let '(v, r1) := g_invgamma G (fa_psi_shape h (size ys)) (fa_psi_scale h mu lambda eta ys j) r in
      let '(vs, r2) := fa_draw_psi h mu lambda eta ys js' r1 in (v :: vs, r2)
  end.
(** fa_updater.cc:82-99. *)
Fixpoint fa_draw_lambda (G : gen) p q (mu psi : 'cV[R]_p) (eta : seq 'cV[R]_q) (ys : seq 'cV[R]_p) (js : seq 'I_p)
    (r : Gs G) : seq 'cV[R]_q * Gs G :=
  match js with
  | [::] => ([::], r)
  | j :: js' =>
      let '(l, r1) := mvn_prec_chol_rng (fa_lambda_mean mu psi eta ys j) (fa_lambda_prec psi eta j) r in
      let '(ls, r2) := fa_draw_lambda mu psi eta ys js' r1 in (l :: ls, r2)
  end.

(** fa_updater.cc:5-25; [ys] are the cluster's data and [data_sum] the stored
    statistic. *)
Definition fa_draw (G : gen) p q (h : fa_hyp p) (ys : seq 'cV[R]_p) (data_sum : 'cV[R]_p) (s : fa_st p q) (r : Gs G) :
    res (fa_st p q * Gs G) :=
  if size ys == 0%N then Ok (fa_sample q h r)
  else
    match fa_pinv s with
    | None => UB
    | Some pinv =>
        let '(eta, r1) := fa_draw_eta (fa_lambda s) pinv (fa_mu s) ys r in
        let '(mu, r2) := mvn_diag_rng (fa_mu_mean h pinv (fa_lambda s) eta (size ys) data_sum)
                                      (fa_mu_cov pinv (fh_phi h) (size ys)) r1 in
        let '(psi, r3) := fa_draw_psi h mu (fa_lambda s) eta ys (enum 'I_p) r2 in
        let psi := colv p psi in
        let '(lam, r4) := fa_draw_lambda mu psi eta ys (enum 'I_p) r3 in
        Ok (mkFA mu psi eta (\matrix_(j, i) nth 0 lam j i 0) (Some pinv) (fa_wood s), r4)
    end.
