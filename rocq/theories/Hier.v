(** * Hierarchies: one cluster's bookkeeping, updater cache and draws.

    Model of src/hierarchies/base_hierarchy.h, likelihoods/base_likelihood.h,
    updaters/abstract_updater.h and updaters/semi_conjugate_updater.h.

    The numerical content of a concrete hierarchy / mixing / generator is an
    interface record [Iface]; concrete instances over the reals are in the
    numeric files.  Functions only, no proofs. *)
From Coq Require Import String.
From Coq Require Import Bool List Arith ZArith.
From Verif Require Import Base.
Import ListNotations.
Set Implicit Arguments.

Record Iface : Type := mkIface {
  (** one row of the data matrix, one row of the hierarchy covariates *)
  Datum : Type;
  Cov : Type;
  (** [Eigen::RowVectorXd(0)], the default covariate argument *)
  cov0 : Cov;
  (** summary statistics of a likelihood, cluster parameters, (prior or
      posterior) hyperparameters, log-weights, mixing state, generator state *)
  Stats : Type;
  St : Type;
  Hyp : Type;
  W : Type;
  Mix : Type;
  Rng : Type;
  (** [updater->is_conjugate()], abstract_updater.h:24 *)
  conj : bool;
  (** the row has the lengths the statistics expect; Eigen arithmetic on other
      lengths is an assertion failure / out-of-range access *)
  row_ok : Datum -> Cov -> bool;
  stats0 : Stats;
  (** [update_sum_stats(datum, covariate, add)] of the concrete likelihood *)
  stats_op : Datum -> Cov -> bool -> Stats -> Stats;
  (** [compute_posterior_hypers(like, prior)]: prior hyperparameters,
      cardinality, statistics, current cluster parameters *)
  post : Hyp -> Z -> Stats -> St -> Hyp;
  (** [prior->sample(hypers)] *)
  prior_sample : Hyp -> Rng -> St * Rng;
  (** [None]: the updater is a [SemiConjugateUpdater]; [Some f]: another
      updater, whose [draw] is [f hypers card stats ids state] *)
  other_draw : option (Hyp -> Z -> Stats -> list nat -> St -> Rng -> St * Rng);
  (** [initialize_state()] of the concrete hierarchy *)
  init_state : Hyp -> St;
  like_lpdf : St -> Datum -> Cov -> W;
  marg_lpdf : Hyp -> Datum -> Cov -> W;
  (** [mixing->get_mass_existing_cluster(n, n_clust, true, true, hier)]; the
      hierarchy is only used through its cardinality (all mixings) *)
  mass_ex : Mix -> nat -> nat -> Z -> res W;
  (** [mixing->get_mass_new_cluster(n, n_clust, true, true)] *)
  mass_new : Mix -> nat -> nat -> res W;
  (** [mixing->get_mixing_weights(true, false, mix_covariates.row(i))] *)
  mix_logweights : Mix -> nat -> list W;
  (** [mixing->update_state(unique_values, allocations)], through the
      cardinalities and the allocation vector *)
  mix_update : Mix -> list Z -> list nat -> Rng -> res (Mix * Rng);
  (** [prior->update_hypers(states)] *)
  hyp_update : Hyp -> list (St * Z) -> Rng -> Hyp * Rng;
  (** arithmetic on log-weights *)
  w0 : W;
  wadd : W -> W -> W;
  wneg : W -> W;
  (** [w - log(n)] *)
  wsublog : W -> nat -> W;
  (** [log(softmax(ws)(c))] *)
  log_softmax : list W -> nat -> W;
  (** [categorical_rng(softmax(ws), rng, 0)] on a non-empty vector *)
  categorical : list W -> Rng -> nat * Rng;
  (** [categorical_rng] on [n > 0] equal probabilities *)
  uniform : nat -> Rng -> nat * Rng;
  (** [std::log(uniform_rng(0,1)) < w] *)
  accept : W -> Rng -> bool * Rng
}.

Section Hier.
Variable I : Iface.

(** A hierarchy object ([BaseHierarchy] with its likelihood and updater).
    base_likelihood.h:169-180 ([state], [card], [cluster_data_idx]),
    abstract_updater.h:69-71 ([saved_posterior_hypers], [posterior_hypers]).
    [log_card] is always [log(card)] (set_card, base_likelihood.h:150-153), so
    it is not stored.  The prior's hyperparameters are shared by all clones and
    passed separately. *)
Record hier : Type := mkHier {
  h_ids : list nat;
  h_card : Z;
  h_stats : Stats I;
  h_state : St I;
  h_saved : bool;
  h_ph : option (Hyp I)
}.

(** base_hierarchy.h:95-103 with the likelihood's and updater's clone: same
    state, no data, cleared statistics, cleared posterior hyperparameters. *)
Definition h_clone (h : hier) : hier :=
  mkHier [] 0 (stats0 I) (h_state h) false None.

(** abstract_updater.h:36-46 and the overrides in the concrete updaters. *)
Definition h_compute_post (hy : Hyp I) (h : hier) : res (Hyp I) :=
  match other_draw I with
  | None => Ok (post I hy (h_card h) (h_stats h) (h_state h))
  | Some _ => Throw "compute_posterior_hypers"
  end.

(** base_hierarchy.h:316-319, abstract_updater.h:49-52. *)
Definition h_save (hy : Hyp I) (h : hier) : res hier :=
  p <- h_compute_post hy h ;;
  Ok (mkHier (h_ids h) (h_card h) (h_stats h) (h_state h) true (Some p)).

(** base_likelihood.h:186-194. *)
Definition like_add (id : nat) (d : Datum I) (c : Cov I) (h : hier) : res hier :=
  if set_mem id (h_ids h) then Abort
  else if row_ok I d c then
    Ok (mkHier (set_insert id (h_ids h)) (h_card h + 1)
               (stats_op I d c true (h_stats h)) (h_state h) (h_saved h) (h_ph h))
  else UB.

(** base_likelihood.h:196-206; an absent id fails the assert (or, with
    assertions disabled, erases [end()]). *)
Definition like_remove (id : nat) (d : Datum I) (c : Cov I) (h : hier) : res hier :=
  if row_ok I d c then
    if set_mem id (h_ids h) then
      Ok (mkHier (set_remove id (h_ids h)) (h_card h - 1)
                 (stats_op I d c false (h_stats h)) (h_state h) (h_saved h) (h_ph h))
    else Abort
  else UB.

(** base_hierarchy.h:295-303. *)
Definition h_add (hy : Hyp I) (upd : bool) (id : nat) (d : Datum I) (c : Cov I)
    (h : hier) : res hier :=
  h' <- like_add id d c h ;; (if upd then h_save hy h' else Ok h').

(** base_hierarchy.h:306-314. *)
Definition h_remove (hy : Hyp I) (upd : bool) (id : nat) (d : Datum I) (c : Cov I)
    (h : hier) : res hier :=
  h' <- like_remove id d c h ;; (if upd then h_save hy h' else Ok h').

Definition h_set_state (s : St I) (h : hier) : hier :=
  mkHier (h_ids h) (h_card h) (h_stats h) s (h_saved h) (h_ph h).

(** base_hierarchy.h:215. *)
Definition h_sample_prior (hy : Hyp I) (h : hier) (r : Rng I) : hier * Rng I :=
  let '(s, r') := prior_sample I hy r in (h_set_state s h, r').

(** semi_conjugate_updater.h:39-48; for other updaters abstract_updater.h:54-60
    throws.  With [saved] set and a null pointer the caller dereferences null. *)
Definition h_get_post (hy : Hyp I) (save : bool) (h : hier) : res (Hyp I * hier) :=
  match other_draw I with
  | Some _ => Throw "Cannot call get_posterior_hypers() from a non-(semi)conjugate updater"
  | None =>
      if h_saved h then
        match h_ph h with Some p => Ok (p, h) | None => UB end
      else
        p <- h_compute_post hy h ;;
        if save then
          Ok (p, mkHier (h_ids h) (h_card h) (h_stats h) (h_state h) false (Some p))
        else Ok (p, h)
  end.

(** base_hierarchy.h:219-221 with semi_conjugate_updater.h:69-83 (or the
    updater's own [draw]). *)
Definition h_draw (hy : Hyp I) (save : bool) (h : hier) (r : Rng I) : res (hier * Rng I) :=
  match other_draw I with
  | Some f =>
      let '(s, r') := f hy (h_card h) (h_stats h) (h_ids h) (h_state h) r in
      Ok (h_set_state s h, r')
  | None =>
      if Z.eqb (h_card h) 0 then Ok (h_sample_prior hy h r)
      else
        '(p, h') <- h_get_post hy save h ;;
        let '(s, r') := prior_sample I p r in
        Ok (h_set_state s h', r')
  end.

(** base_hierarchy.h:149-153. *)
Definition h_prior_pred (hy : Hyp I) (d : Datum I) (c : Cov I) : W I :=
  marg_lpdf I hy d c.

(** base_hierarchy.h:190-195. *)
Definition h_cond_pred (hy : Hyp I) (h : hier) (d : Datum I) (c : Cov I) : res (W I) :=
  '(p, _) <- h_get_post hy false h ;; Ok (marg_lpdf I p d c).

(** base_hierarchy.h:118-122. *)
Definition h_like (h : hier) (d : Datum I) (c : Cov I) : W I :=
  like_lpdf I (h_state h) d c.

(** base_hierarchy.h:322-330: hyperparameters set to the initial prior ones
    ([hy]); for conjugate updaters they are also *saved as the posterior*;
    the state is initialised; data and statistics are cleared. *)
Definition h_initialize (hy : Hyp I) (h : hier) : hier :=
  mkHier [] 0 (stats0 I) (init_state I hy)
         (if conj I then true else h_saved h)
         (if conj I then Some hy else h_ph h).

End Hier.

Arguments h_ids {I} h.
Arguments h_card {I} h.
Arguments h_stats {I} h.
Arguments h_state {I} h.
Arguments h_saved {I} h.
Arguments h_ph {I} h.
