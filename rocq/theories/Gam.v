(** * The gamma hierarchy of /repo/examples/gamma_hierarchy.

    Model of gamma_likelihood.h, gamma_prior_model.h, gammagamma_updater.h,
    gammagamma_hierarchy.h and of the set-up in run_gamma_gamma.cc.  Functions
    only.  [ndata] is an [int] without wrap-around. *)
From Coq Require Import String.
From Coq Require Import Bool List Arith ZArith Reals.
From Verif Require Import Base XReal Hier Algos Run Mixings Univ RealInst.
Import ListNotations.
Local Open Scope R_scope.

(** gamma_likelihood.h:14-35: the state and its message, the two entries of
    [general_state().data()]; [RepeatedField::operator[]] is not checked. *)
Record gam_st : Type := mkGam { gm_shape : R; gm_rate : R }.
Definition gam_to_msg (s : gam_st) : list R := [gm_shape s; gm_rate s].
Definition gam_of_msg (l : list R) : res gam_st :=
  a <- at_ l 0 ;; b <- at_ l 1 ;; Ok (mkGam a b).

(** gamma_likelihood.h:67-69. *)
Definition gam_lpdf (lg : R -> R) (s : gam_st) (y : R) : R := gamma_lpdf lg y (gm_shape s) (gm_rate s).

(** gamma_likelihood.h:55-65, 71-80: [data_sum], [ndata]. *)
Definition gam_stats : Type := R * Z.
Definition gam_stats0 : gam_stats := (0, 0%Z).
Definition gam_op (y : R) (add : bool) (s : gam_stats) : gam_stats :=
  if add then (fst s + y, (snd s + 1)%Z) else (fst s - y, (snd s - 1)%Z).

(** gamma_prior_model.h:15-18, 48, 53-57: the members [shape], [rate_alpha],
    [rate_beta] given to the constructor and the hyperparameters; [shape] is
    read from the object, never from the message. *)
Record gam_hyp : Type := mkGP { gp_shape : R; gp_alpha : R; gp_beta : R }.
(** gamma_prior_model.h:77-89. *)
Definition gam_hyp_msg (h : gam_hyp) : list R := [gp_alpha h; gp_beta h].
Definition gam_set_hyp (h : gam_hyp) (l : list R) : res gam_hyp :=
  a <- at_ l 0 ;; b <- at_ l 1 ;; Ok (mkGP (gp_shape h) a b).

(** gamma_prior_model.h:91-105. *)
Definition gam_init (shape alpha beta : R) : res gam_hyp :=
  if lteb shape 0 then Throw "shape must be positive"
  else if lteb alpha 0 then Throw "rate_alpha must be positive"
  else if lteb beta 0 then Throw "rate_beta must be positive"
  else Ok (mkGP shape alpha beta).

(** gamma_prior_model.h:59-62. *)
Definition gam_prior_lpdf (lg : R -> R) (h : gam_hyp) (s : gam_st) : R :=
  gamma_lpdf lg (gm_rate s) (gp_alpha h) (gp_beta h).

(** gamma_prior_model.h:64-75. *)
Definition gam_sample (G : gen) (h : gam_hyp) (r : Gs G) : gam_st * Gs G :=
  let '(rate, r1) := g_gamma G (gp_alpha h) (gp_beta h) r in (mkGam (gp_shape h) rate, r1).

(** gammagamma_updater.h:23-49. *)
Definition gam_post (h : gam_hyp) (card : Z) (st : gam_stats) : gam_hyp :=
  if Z.eqb card 0 then h
  else mkGP (gp_shape h) (gp_alpha h + gp_shape h * IZR (snd st)) (gp_beta h + fst st).

(** gammagamma_hierarchy.h:29-37. *)
Definition gam_init_state (h : gam_hyp) : gam_st := mkGam (gp_shape h) (gp_alpha h / gp_beta h).

(** gammagamma_hierarchy.h:39-44. *)
Definition gam_marg (h : gam_hyp) (y : R) : res R := Throw "marg_lpdf() not implemented for this hierarchy".

(** The interface of Hier.v.  [marg_lpdf] has no value: algorithms that call it
    are outside this instance (see [gam_marg]). [update_hypers] does nothing
    (gamma_prior_model.h:36-39). *)
Definition gam_iface (lg : R -> R) (G : gen) : Iface := {|
  Datum := R;
  Cov := unit;
  cov0 := tt;
  Stats := gam_stats;
  St := gam_st;
  Hyp := gam_hyp;
  W := xreal;
  Mix := mixing;
  Rng := Gs G;
  conj := true;
  row_ok := fun _ _ => true;
  stats0 := gam_stats0;
  stats_op := fun y _ add s => gam_op y add s;
  post := fun h card st _ => gam_post h card st;
  prior_sample := gam_sample G;
  other_draw := None;
  init_state := gam_init_state;
  like_lpdf := fun s y _ => Fin (gam_lpdf lg s y);
  marg_lpdf := fun _ _ _ => XInf;
  mass_ex := mixing_mass_ex;
  mass_new := mixing_mass_new;
  mix_logweights := fun _ _ => [];
  mix_update := mixing_update G;
  hyp_update := fun h _ r => (h, r);
  w0 := Fin 0;
  wadd := xadd;
  wneg := xneg;
  wsublog := fun w k => xsublog w (INR k);
  log_softmax := fun ws c => xlog (nth c (softmax ws) 0);
  categorical := fun ws r => g_cat G (softmax ws) r;
  uniform := fun k r => g_cat G (repeat (/ INR k) k) r;
  accept := fun w r => let '(u, r') := g_unif G 0 1 r in (xltb u w, r')
|}.

(** run_gamma_gamma.cc:19-49: the objects and parameters of the program. *)
Definition gam_example_hyp : res gam_hyp := gam_init 1 2 2.
Definition gam_example_prior : dp_prior := DPFixed 1.
Definition gam_example_n : nat := 50.
Definition gam_example_init : nat := 10.
Definition gam_example_aux : nat := 1.

(** run_gamma_gamma.cc:19-49: the program up to the first iteration and with
    [maxiter] iterations; [st] is the state of the hierarchy before
    [initialize_state], [pos] the engine of base_algorithm.cc:130-131, 140. *)
Section Program.
  Variable lg : R -> R.
  Variable G : gen.
  Local Notation I := (gam_iface lg G).
  Definition gam_start (data : list R) (pos : nat -> nat) (st : gam_st) (r : Rng I) : res (alg I * Rng I) :=
    m <- dp_init gam_example_prior dp_make_shared ;;
    h <- gam_example_hyp ;;
    '(a, r0) <- @init_clusters I data (repeat tt (length data)) false h (MixDP gam_example_prior m) gam_example_init pos
                  [@mkHier I [] 0%Z gam_stats0 st false None] r ;;
    a1 <- neal8_init_aux gam_example_aux a ;;
    Ok (a1, r0).
  Definition gam_step (data : list R) : alg I * Rng I -> res (alg I * Rng I) :=
    base_step (@neal8_sample_allocations I data (repeat tt (length data)) gam_example_aux) false.
  Definition gam_run (data : list R) (pos : nat -> nat) (st : gam_st) (r : Rng I) (maxiter burnin : nat)
      : res ((alg I * Rng I) * list (snapshot I)) :=
    run (gam_start data pos st r) (gam_step data) maxiter burnin.
End Program.
