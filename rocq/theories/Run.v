(** * Configuration checks, initialisation and the main loop.

    Model of src/algorithms/base_algorithm.{h,cc}: [initialize], [run],
    [get_state_as_proto].  Functions only. *)
From Coq Require Import String.
From Coq Require Import Bool List Arith ZArith.
From Verif Require Import Base Hier Algos.
Import ListNotations.
Set Implicit Arguments.

(** What [initialize] inspects before touching anything
    (base_algorithm.cc:61-112).  Row counts of the covariate matrices are zero
    when none was given. *)
Record config : Type := mkConfig {
  c_data_rows : nat;
  c_data_cols : nat;
  c_has_hier : bool;            (* unique_values.size() != 0 *)
  c_hier_conj : bool;           (* unique_values[0]->is_conjugate() *)
  c_hier_multi : bool;          (* unique_values[0]->is_multivariate() *)
  c_hier_dep : bool;            (* unique_values[0]->is_dependent() *)
  c_hcov_rows : nat;            (* hier_covariates.rows() *)
  c_has_mixing : bool;          (* mixing != nullptr *)
  c_mix_cond : bool;            (* mixing->is_conditional() *)
  c_mix_dep : bool;             (* mixing->is_dependent() *)
  c_mcov_rows : nat;            (* mix_covariates.rows() *)
  c_alg_cond : bool;            (* this->is_conditional() *)
  c_alg_conj : bool             (* this->requires_conjugate_hierarchy() *)
}.

Definition check (b : bool) (msg : string) : res unit :=
  if b then Throw msg else Ok tt.

(** base_algorithm.cc:61-112, in order. *)
Definition checks (c : config) : res unit :=
  _ <- check (c_data_rows c =? 0) "Data was not provided to algorithm" ;;
  _ <- check (negb (c_has_hier c)) "Hierarchy was not provided to algorithm" ;;
  _ <- check (negb (c_hier_conj c) && c_alg_conj c) "only supports conjugate hierarchies" ;;
  _ <- check (negb (c_hier_multi c) && (1 <? c_data_cols c))
             "Multivariate data supplied to univariate hierarchy" ;;
  _ <- (if negb (c_hcov_rows c =? 0) then
          _ <- check (negb (c_hier_dep c)) "Covariates supplied to non-dependent hierarchy" ;;
          check (negb (c_data_rows c =? c_hcov_rows c))
                "Sizes of data and hierarchy covariates do not match"
        else Ok tt) ;;
  _ <- check (negb (c_has_mixing c)) "Mixing was not provided to algorithm" ;;
  _ <- check (negb (Bool.eqb (c_alg_cond c) (c_mix_cond c)))
             "Algorithm and mixing must be either both marginal or both conditional" ;;
  if negb (c_mcov_rows c =? 0) then
    _ <- check (negb (c_mix_dep c)) "Covariates supplied to non-dependent mixing" ;;
    check (negb (c_data_rows c =? c_mcov_rows c))
          "Sizes of data and mixing covariates do not match"
  else Ok tt.

Section Run.
Variable I : Iface.

(** base_algorithm.cc:84-87: without covariates an [n x 0] matrix is created. *)
Definition effective_covs (n : nat) (covs : list (Cov I)) : list (Cov I) :=
  match covs with [] => repeat (cov0 I) n | _ => covs end.

(** [initialize] up to the algorithm-specific additions: the checks, then the
    mixing's own initialisation ([mixinit], which receives
    [init_num_clusters] and returns the mixing state and its number of
    components, or throws), then the clusters. *)
Definition initialize (cfg : config) (data : list (Datum I)) (covs : list (Cov I))
    (uhp : bool) (hy0 : Hyp I) (mixinit : nat -> res (Mix I * nat))
    (init_num_clusters : nat) (gen : nat -> nat) (uv0 : list (hier I)) (r : Rng I)
    : res (alg I * Rng I) :=
  _ <- checks cfg ;;
  '(m, k) <- mixinit init_num_clusters ;;
  init_clusters data (effective_covs (length data) covs) uhp hy0 m k gen uv0 r.

(** A saved state: base_algorithm.cc:170-195 (iteration number, allocations,
    cluster states with cardinalities, hyperparameters, mixing state). *)
Record snapshot : Type := mkSnap {
  s_iter : nat;
  s_alloc : list nat;
  s_clusters : list (St I * Z);
  s_hyp : Hyp I;
  s_mix : Mix I
}.

Definition get_state (it : nat) (a : alg I) : res snapshot :=
  _ <- at_ (a_uv a) 0 ;;
  Ok (mkSnap it (a_alloc a) (map (fun h => (h_state h, h_card h)) (a_uv a)) (a_hyp a) (a_mix a)).

(** One turn of the while loop, base_algorithm.h:61-71. *)
Definition run_body (step : alg I * Rng I -> res (alg I * Rng I)) (burnin : nat)
    (s : (alg I * Rng I) * list snapshot) (it : nat) : res ((alg I * Rng I) * list snapshot) :=
  let '(ar, out) := s in
  ar' <- step ar ;;
  if burnin <=? it then
    snap <- get_state it (fst ar') ;; Ok (ar', out ++ [snap])
  else Ok (ar', out).

(** base_algorithm.h:49-78; [init] is the virtual [initialize]. *)
Definition run (init : res (alg I * Rng I)) (step : alg I * Rng I -> res (alg I * Rng I))
    (maxiter burnin : nat) : res ((alg I * Rng I) * list snapshot) :=
  s0 <- init ;;
  rfold (run_body step burnin) (seq 0 maxiter) (s0, []).

End Run.
