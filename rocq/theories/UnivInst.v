(** * The two univariate hierarchies without a conjugate prior, over the reals.

    The interface of Hier.v filled for NNxIGHierarchy (nnxig_hierarchy.h) and for
    LapNIGHierarchy (lapnig_hierarchy.h) with a random-walk updater passed to the
    constructor (base_hierarchy.h:49-66); its default updater is MALA, which
    throws at every draw (C70).  Functions only.

    [is_conjugate] is false for both (base_hierarchy.h:339, abstract_updater.h:24),
    so [marg_lpdf] is never reached by the algorithms that accept them; the member
    of the base class throws (base_hierarchy.h:355-364) and the field is a
    placeholder. *)
From Coq Require Import String.
From Coq Require Import Bool List Arith ZArith Reals.
From Verif Require Import Base Hier Algos Run XReal Mixings Univ RealInst.
Import ListNotations.
Local Open Scope R_scope.

Definition nnxig_iface (G : gen) : Iface := {|
  Datum := R;
  Cov := unit;
  cov0 := tt;
  Stats := norm_stats;
  St := uni_ls;
  Hyp := nxig;
  W := xreal;
  Mix := mixing;
  Rng := Gs G;
  conj := false;
  row_ok := fun _ _ => true;
  stats0 := norm_stats0;
  stats_op := fun y _ add s => norm_op y add s;
  post := nnxig_post;
  prior_sample := nxig_sample G;
  other_draw := None;
  init_state := fun h => uni_init_state (nx_mean h) (nx_shape h) (nx_scale h);
  like_lpdf := fun s y _ => Fin (norm_lpdf s y);
  marg_lpdf := fun _ _ _ => XInf;
  mass_ex := mixing_mass_ex;
  mass_new := mixing_mass_new;
  mix_logweights := fun _ _ => [];
  mix_update := mixing_update G;
  hyp_update := fun h _ r => (h, r);
  w0 := Fin 0;
  wadd := xadd;
  wneg := xneg;
  wsublog := fun w k => xsublog w (INR k);
  log_softmax := fun ws c => xlog (nth c (softmax ws) 0);
  categorical := fun ws r => g_cat G (softmax ws) r;
  uniform := fun k r => g_cat G (repeat (/ INR k) k) r;
  accept := fun w r => let '(u, r') := g_unif G 0 1 r in (xltb u w, r')
|}.

(** metropolis_updater.h:31-50 with random_walk_updater.h:41-68 and
    laplace_likelihood.h:39-54; [data] is the dataset the likelihood points to
    (abstract_likelihood.h), [ids] the rows of the cluster, [junk] what the two
    uninitialised variables of [proposal_lpdf] hold. *)
Definition rw_draw (G : gen) (step : R) (junk : Gs G -> R * R) (data : list R) (ids : list nat) (s : uni_ls) (r : Gs G) : uni_ls * Gs G :=
  let like := lap_cluster_lpdf (map (fun i => nth i data 0) ids) in
  let curr := ls_get_unconstrained s in
  let '(prop, r1) := rw_sample G step curr r in
  let la := metropolis_log_arate like (rw_proposal_lpdf (fst (junk r1)) step) (rw_proposal_lpdf (snd (junk r1)) step) curr prop in
  let '(u, r2) := g_unif G 0 1 r1 in
  (if gtb la (ln u) then ls_set_unconstrained prop else s, r2).

Definition lap_iface (G : gen) (step : R) (junk : Gs G -> R * R) (data : list R) : Iface := {|
  Datum := R;
  Cov := unit;
  cov0 := tt;
  Stats := unit;
  St := uni_ls;
  Hyp := nxig;
  W := xreal;
  Mix := mixing;
  Rng := Gs G;
  conj := false;
  row_ok := fun _ _ => true;
  stats0 := tt;
  stats_op := fun _ _ _ s => s;
  post := fun h _ _ _ => h;
  prior_sample := nxig_sample G;
  other_draw := Some (fun _ _ _ ids s r => rw_draw G step junk data ids s r);
  init_state := fun h => uni_init_state (nx_mean h) (nx_shape h) (nx_scale h);
  like_lpdf := fun s y _ => Fin (lap_lpdf s y);
  marg_lpdf := fun _ _ _ => XInf;
  mass_ex := mixing_mass_ex;
  mass_new := mixing_mass_new;
  mix_logweights := fun _ _ => [];
  mix_update := mixing_update G;
  hyp_update := fun h _ r => (h, r);
  w0 := Fin 0;
  wadd := xadd;
  wneg := xneg;
  wsublog := fun w k => xsublog w (INR k);
  log_softmax := fun ws c => xlog (nth c (softmax ws) 0);
  categorical := fun ws r => g_cat G (softmax ws) r;
  uniform := fun k r => g_cat G (repeat (/ INR k) k) r;
  accept := fun w r => let '(u, r') := g_unif G 0 1 r in (xltb u w, r')
|}.

(** ** Programs

    [initialize] of the mixing (dirichlet_mixing.cc:93-117, pityor_mixing.cc:74-89)
    and of the prior, the clusters, then the iterations; [pos] is the engine of
    base_algorithm.cc:130-131, 140, [st] the state of the hierarchy object before
    [initialize_state]. *)
Inductive mixing_prior : Type := PriDP (p : dp_prior) | PriPY (p : py_prior).
Definition mixing_start (mp : mixing_prior) : res mixing :=
  match mp with
  | PriDP p => s <- dp_init p dp_make_shared ;; Ok (MixDP p s)
  | PriPY p => s <- py_init p ;; Ok (MixPY p s)
  end.

Section Program.
  Variable I : Iface.
  Variable hyp0 : res (Hyp I).
  Variable mix0 : res (Mix I).
  Variable data : list (Datum I).
  Variable k : nat.
  Variable pos : nat -> nat.
  Variable st : St I.
  Local Notation covs := (repeat (cov0 I) (length data)).
  Local Notation h0 := (mkHier I [] 0%Z (stats0 I) st false None).

  Definition start (uhp : bool) (r : Rng I) : res (alg I * Rng I) :=
    m <- mix0 ;; hy <- hyp0 ;; init_clusters data covs uhp hy m k pos [h0] r.
  Definition neal2_run (maxiter burnin : nat) (r : Rng I) :=
    run (start false r) (base_step (neal2_sample_allocations data covs) false) maxiter burnin.
  Definition neal3_run (maxiter burnin : nat) (r : Rng I) :=
    run (start true r) (base_step (neal3_sample_allocations data covs) true) maxiter burnin.
  Definition neal8_run (n_aux maxiter burnin : nat) (r : Rng I) :=
    run ('(a, r0) <- start false r ;; a1 <- neal8_init_aux n_aux a ;; Ok (a1, r0))
      (base_step (neal8_sample_allocations data covs n_aux) false) maxiter burnin.
End Program.
