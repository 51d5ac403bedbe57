(** * The univariate hierarchies over the reals.

    Model of src/hierarchies/likelihoods/{uni_norm,laplace}_likelihood.*,
    likelihoods/states/uni_ls_state.h, priors/{nig,nxig}_prior_model.*,
    updaters/{nnig,nnxig}_updater.cc, {nnig,nnxig,lapnig}_hierarchy.h.
    Functions only.

    Doubles are reals.  The Stan densities and the generators are library code;
    the densities are written out here from Stan's reference, [lg] stands for
    the log-gamma function and is left arbitrary.  Stan throws when a scale is
    not positive; the theorems' hypotheses keep scales positive. *)
From Coq Require Import String.
From Coq Require Import Bool List Arith ZArith Reals.
From Verif Require Import Base Mixings.
Import ListNotations.
Local Open Scope R_scope.

(** ** Stan's log-densities *)

Definition normal_lpdf (y mu sd : R) : R :=
  - ((y - mu) / sd) * ((y - mu) / sd) / 2 - ln sd - ln (2 * PI) / 2.
Definition inv_gamma_lpdf (lg : R -> R) (y shape scale : R) : R :=
  shape * ln scale - lg shape - (shape + 1) * ln y - scale / y.
Definition gamma_lpdf (lg : R -> R) (y shape rate : R) : R :=
  shape * ln rate - lg shape + (shape - 1) * ln y - rate * y.
Definition student_t_lpdf (lg : R -> R) (y nu mu sigma : R) : R :=
  lg ((nu + 1) / 2) - lg (nu / 2) - ln nu / 2 - ln PI / 2 - ln sigma
  - (nu + 1) / 2 * ln (1 + ((y - mu) / sigma) * ((y - mu) / sigma) / nu).
Definition double_exponential_lpdf (y mu sigma : R) : R :=
  - ln 2 - ln sigma - Rabs (y - mu) / sigma.

(** ** Cluster parameters *)

(** uni_ls_state.h:46-50. *)
Record uni_ls : Type := mkLS { ls_mean : R; ls_var : R }.

(** uni_ls_state.h:17-23, 27-33, 39-43: [positive_constrain(x, lp)] adds [x] to
    [lp]. *)
Definition to_constrained (u : R * R) : R * R := (fst u, exp (snd u)).
Definition to_unconstrained (c : R * R) : R * R := (fst c, ln (snd c)).
Definition log_det_jac (c : R * R) : R := 0 + ln (snd c).

(** uni_ls_state.h:54-58, 60-64, 82-86. *)
Definition ls_get_unconstrained (s : uni_ls) : R * R := to_unconstrained (ls_mean s, ls_var s).
Definition ls_set_unconstrained (u : R * R) : uni_ls :=
  let c := to_constrained u in mkLS (fst c) (snd c).
Definition ls_log_det_jac (s : uni_ls) : R := log_det_jac (ls_mean s, ls_var s).

(** ** Normal likelihood *)

(** uni_norm_likelihood.cc:3-5. *)
Definition norm_lpdf (s : uni_ls) (y : R) : R := normal_lpdf y (ls_mean s) (sqrt (ls_var s)).

(** uni_norm_likelihood.cc:7-16, 18-21: [data_sum], [data_sum_squares]. *)
Definition norm_stats : Type := R * R.
Definition norm_stats0 : norm_stats := (0, 0).
Definition norm_op (y : R) (add : bool) (s : norm_stats) : norm_stats :=
  if add then (fst s + y, snd s + y * y) else (fst s - y, snd s - y * y).

(** uni_norm_likelihood.h:38-48. *)
Definition norm_cluster_lpdf (card : Z) (st : norm_stats) (u : R * R) : R :=
  let mean := fst u in
  let var := exp (snd u) in
  let out := - (snd st - 2 * mean * fst st + IZR card * mean * mean) / (2 * var) in
  out - IZR card * 0.5 * ln (2 * PI * var).

(** ** Laplace likelihood *)

(** laplace_likelihood.cc:3-6. *)
Definition lap_lpdf (s : uni_ls) (y : R) : R :=
  double_exponential_lpdf y (ls_mean s) (sqrt (ls_var s / 2)).

(** laplace_likelihood.h:39-54; [ys] are the cluster's rows of the dataset. *)
Definition lap_cluster_lpdf (ys : list R) (u : R * R) : R :=
  fold_left (fun out y => out + double_exponential_lpdf y (fst u) (sqrt (exp (snd u) / 2))) ys 0.

(** ** Normal-inverse-gamma prior *)

(** hyperparams.h; the message type nnig_state has the same fields. *)
Record nig : Type := mkNIG { ng_mean : R; ng_vs : R; ng_shape : R; ng_scale : R }.

Inductive nig_prior : Type :=
| NIGFixed (mean vs shape scale : R)
| NIGMean (mu00 sig200 vs shape scale : R)
| NIGNgg (mu00 sig200 alpha00 beta00 a00 b00 alpha0 : R)
| NIGOther.

Definition nig_check (h : nig) : res nig :=
  if lteb (ng_vs h) 0 then Throw "Variance-scaling parameter must be > 0"
  else if lteb (ng_shape h) 0 then Throw "Shape parameter must be > 0"
  else if lteb (ng_scale h) 0 then Throw "scale parameter must be > 0"
  else Ok h.

(** nig_prior_model.cc:3-76. *)
Definition nig_init (p : nig_prior) : res nig :=
  match p with
  | NIGFixed m v a b => nig_check (mkNIG m v a b)
  | NIGMean m _ v a b => nig_check (mkNIG m v a b)
  | NIGNgg mu00 sig200 alpha00 beta00 a00 b00 alpha0 =>
      if lteb sig200 0 then Throw "Variance parameter must be > 0"
      else if lteb alpha00 0 then Throw "Shape parameter must be > 0"
      else if lteb beta00 0 then Throw "scale parameter must be > 0"
      else if lteb a00 0 then Throw "Shape parameter must be > 0"
      else if lteb b00 0 then Throw "scale parameter must be > 0"
      else if lteb alpha0 0 then Throw "Shape parameter must be > 0"
      else Ok (mkNIG mu00 (alpha00 / beta00) alpha0 (a00 / b00))
  | NIGOther => Throw "Unrecognized hierarchy prior"
  end.

(** nig_prior_model.cc:78-85. *)
Definition nig_lpdf (lg : R -> R) (h : nig) (s : uni_ls) : R :=
  normal_lpdf (ls_mean s) (ng_mean h) (sqrt (ls_var s / ng_vs h))
  + inv_gamma_lpdf lg (ls_var s) (ng_shape h) (ng_scale h).

(** nig_prior_model.h:40-53. *)
Definition nig_lpdf_unconstrained (lg : R -> R) (h : nig) (u : R * R) : R :=
  let c := to_constrained u in
  normal_lpdf (fst c) (ng_mean h) (sqrt (snd c / ng_vs h))
  + inv_gamma_lpdf lg (snd c) (ng_shape h) (ng_scale h) + log_det_jac c.

(** nig_prior_model.cc:106-122: mean and variance of the draw. *)
Definition nig_mean_update (mu00 sig200 lambda0 : R) (states : list uni_ls) : R * R :=
  let prec := fold_left (fun a s => a + 1 / ls_var s) states 0 in
  let num := fold_left (fun a s => a + ls_mean s / ls_var s) states 0 in
  let prec := 1 / sig200 + lambda0 * prec in
  let num := mu00 / sig200 + lambda0 * num in
  (num / prec, 1 / prec).

(** nig_prior_model.cc:137-154: [mu_n], [sig_n], [alpha_n], [beta_n], [a_n],
    [b_n]. *)
Record ngg_post : Type := mkNgg {
  gg_mu : R; gg_sig : R; gg_alpha : R; gg_beta : R; gg_a : R; gg_b : R }.
Definition ngg_update (mu00 sig200 alpha00 beta00 a00 b00 : R) (h : nig) (states : list uni_ls) : ngg_post :=
  let b_n := fold_left (fun a s => a + 1 / ls_var s) states 0 in
  let num := fold_left (fun a s => a + ls_mean s / ls_var s) states 0 in
  let beta_n := fold_left (fun a s => a + (ng_mean h - ls_mean s) * (ng_mean h - ls_mean s) / ls_var s) states 0 in
  let var := ng_vs h * b_n + 1 / sig200 in
  let b_n := b_n + b00 in
  let num := ng_vs h * num + mu00 / sig200 in
  let beta_n := beta00 + 0.5 * beta_n in
  mkNgg (num / var) (1 / var) (alpha00 + 0.5 * INR (length states)) beta_n
        (a00 + INR (length states) * ng_shape h) b_n.

(** ** Conjugate update *)

(** nnig_updater.cc:6-42. *)
Definition nnig_post (h : nig) (card : Z) (st : norm_stats) : nig :=
  if Z.eqb card 0 then h
  else
    let n := IZR card in
    let y_bar := fst st / (1 * n) in
    let ss := snd st - n * y_bar * y_bar in
    mkNIG ((ng_vs h * ng_mean h + fst st) / (ng_vs h + n))
          (ng_vs h + n)
          (ng_shape h + 0.5 * n)
          (ng_scale h + 0.5 * ss
           + 0.5 * ng_vs h * n * (y_bar - ng_mean h) * (y_bar - ng_mean h) / (n + ng_vs h)).

(** nnig_hierarchy.h:53-60. *)
Definition nnig_marg_lpdf (lg : R -> R) (h : nig) (y : R) : R :=
  let sig_n := sqrt (ng_scale h * (ng_vs h + 1) / (ng_shape h * ng_vs h)) in
  student_t_lpdf lg y (2 * ng_shape h) (ng_mean h) sig_n.

(** nnig_hierarchy.h:37-45; the same in nnxig_hierarchy.h and
    lapnig_hierarchy.h. *)
Definition uni_init_state (mean shape scale : R) : uni_ls := mkLS mean (scale / (shape + 1)).

(** ** Normal x inverse-gamma prior, semi-conjugate update *)

Record nxig : Type := mkNxIG { nx_mean : R; nx_var : R; nx_shape : R; nx_scale : R }.

Inductive nxig_prior : Type := NxIGFixed (mean var shape scale : R) | NxIGOther.

(** nxig_prior_model.cc:3-23. *)
Definition nxig_init (p : nxig_prior) : res nxig :=
  match p with
  | NxIGFixed m v a b =>
      if lteb v 0 then Throw "Variance parameter must be > 0"
      else if lteb a 0 then Throw "Shape parameter must be > 0"
      else if lteb b 0 then Throw "scale parameter must be > 0"
      else Ok (mkNxIG m v a b)
  | NxIGOther => Throw "Unrecognized hierarchy prior"
  end.

(** nxig_prior_model.cc:25-31. *)
Definition nxig_lpdf (lg : R -> R) (h : nxig) (s : uni_ls) : R :=
  normal_lpdf (ls_mean s) (nx_mean h) (sqrt (nx_var h))
  + inv_gamma_lpdf lg (ls_var s) (nx_shape h) (nx_scale h).

(** NxIGPriorModel has no [lpdf_from_unconstrained] member template, so the
    fallback of prior_model_internal.h:23-28 is chosen
    (base_prior_model.h:48-51, 60-65). *)
Definition nxig_lpdf_unconstrained (h : nxig) (u : R * R) : res R :=
  Throw "lpdf_from_unconstrained() not yet implemented".

(** nnxig_updater.cc:6-41. *)
Definition nnxig_post (h : nxig) (card : Z) (st : norm_stats) (s : uni_ls) : nxig :=
  if Z.eqb card 0 then h
  else
    let n := IZR card in
    let var_y := snd st - 2 * ls_mean s * fst st + n * ls_mean s * ls_mean s in
    mkNxIG ((nx_var h * fst st + ls_var s * nx_mean h) / (n * nx_var h + ls_var s))
           ((ls_var s * nx_var h) / (n * nx_var h + ls_var s))
           (nx_shape h + 0.5 * n)
           (nx_scale h + 0.5 * var_y).

(** ** Generators

    The values produced by Stan's generators, as functions of their arguments
    and of the generator state. *)
Record gen : Type := mkGen {
  Gs : Type;
  g_norm : R -> R -> Gs -> R * Gs;         (* normal_rng(mean, sd) *)
  g_invgamma : R -> R -> Gs -> R * Gs;     (* inv_gamma_rng(shape, scale) *)
  g_gamma : R -> R -> Gs -> R * Gs;        (* gamma_rng(shape, rate) *)
  g_unif : R -> R -> Gs -> R * Gs;         (* uniform_rng(a, b) *)
  g_cat : list R -> Gs -> nat * Gs         (* categorical_rng(probs) - 1 *)
}.

(** nig_prior_model.cc:87-97. *)
Definition nig_sample (G : gen) (h : nig) (r : Gs G) : uni_ls * Gs G :=
  let '(var, r1) := g_invgamma G (ng_shape h) (ng_scale h) r in
  let '(mean, r2) := g_norm G (ng_mean h) (sqrt (var / ng_vs h)) r1 in
  (mkLS mean var, r2).

(** nig_prior_model.cc:99-162; nothing is thrown for a prior that
    [initialize_hypers] accepted. *)
Definition nig_update_hypers (G : gen) (p : nig_prior) (h : nig) (states : list uni_ls) (r : Gs G) : nig * Gs G :=
  match p with
  | NIGFixed _ _ _ _ => (h, r)
  | NIGMean mu00 sig200 vs _ _ =>
      let '(mu_n, sig2_n) := nig_mean_update mu00 sig200 vs states in
      let '(m, r1) := g_norm G mu_n (sqrt sig2_n) r in
      (mkNIG m (ng_vs h) (ng_shape h) (ng_scale h), r1)
  | NIGNgg mu00 sig200 alpha00 beta00 a00 b00 _ =>
      let p := ngg_update mu00 sig200 alpha00 beta00 a00 b00 h states in
      let '(m, r1) := g_norm G (gg_mu p) (gg_sig p) r in
      let '(v, r2) := g_gamma G (gg_alpha p) (gg_beta p) r1 in
      let '(s, r3) := g_gamma G (gg_a p) (gg_b p) r2 in
      (mkNIG m v (ng_shape h) s, r3)
  | NIGOther => (h, r)
  end.

(** nxig_prior_model.cc:33-42. *)
Definition nxig_sample (G : gen) (h : nxig) (r : Gs G) : uni_ls * Gs G :=
  let '(mean, r1) := g_norm G (nx_mean h) (sqrt (nx_var h)) r in
  let '(var, r2) := g_invgamma G (nx_shape h) (nx_scale h) r1 in
  (mkLS mean var, r2).

(** ** Metropolis updaters

    Points are unconstrained parameters.  [double out;] in both
    [proposal_lpdf]s is never initialised (random_walk_updater.h:63,
    mala_updater.h:70): [junk] is what the variable happens to hold. *)

(** metropolis_updater.h:39-44 (the number compared with the logarithm of a
    uniform number); [q x y] is [proposal_lpdf] at [x] from [y]. *)
Definition metropolis_log_arate {P : Type} (like : P -> R) (q_back q_forth : P -> P -> R) (curr prop : P) : R :=
  like prop - like curr + q_back curr prop - q_forth prop curr.

(** random_walk_updater.h:60-68 for two coordinates. *)
Definition rw_proposal_lpdf (junk step : R) (prop curr : R * R) : R :=
  junk + normal_lpdf (fst prop) (fst curr) step + normal_lpdf (snd prop) (snd curr) step.

(** random_walk_updater.h:45-51. *)
Definition rw_sample (G : gen) (step : R) (curr : R * R) (r : Gs G) : (R * R) * Gs G :=
  let '(a, r1) := g_norm G 0 step r in
  let '(b, r2) := g_norm G 0 step r1 in
  ((fst curr + a, snd curr + b), r2).

(** mala_updater.h:67-82; [grad] is the gradient of the target. *)
Definition mala_proposal_lpdf (junk step : R) (grad : R * R -> R * R) (prop curr : R * R) : R :=
  let mean := (fst curr + step * fst (grad curr), snd curr + step * snd (grad curr)) in
  let sd := sqrt (2 * step) in
  junk + normal_lpdf (fst prop) (fst mean) sd + normal_lpdf (snd prop) (snd mean) sd.

(** target_lpdf_unconstrained.h:24-28. *)
Definition target_lpdf (like : R * R -> R) (prior : R * R -> res R) (u : R * R) : res R :=
  p <- prior u ;; Ok (like u + p).

(** metropolis_updater.h:31-50 with mala_updater.h:43-57: [stan::math::gradient]
    first evaluates the target (with automatic-differentiation variables); [deriv]
    is the gradient it computes when that succeeds. *)
Definition mala_draw (G : gen) (step : R) (junk1 junk2 : R) (like : R * R -> R) (prior : R * R -> res R)
    (deriv : R * R -> R * R) (s : uni_ls) (r : Gs G) : res (uni_ls * Gs G) :=
  let curr := ls_get_unconstrained s in
  let sd := sqrt (2 * step) in
  let '(n1, r1) := g_norm G 0 sd r in
  let '(n2, r2) := g_norm G 0 sd r1 in
  _ <- target_lpdf like prior curr ;;
  let prop := (fst curr + step * fst (deriv curr) + n1, snd curr + step * snd (deriv curr) + n2) in
  _ <- target_lpdf like prior prop ;;
  let la := metropolis_log_arate like (mala_proposal_lpdf junk1 step deriv) (mala_proposal_lpdf junk2 step deriv) curr prop in
  let '(u, r3) := g_unif G 0 1 r2 in
  Ok (if gtb la (ln u) then ls_set_unconstrained prop else s, r3).
